(** Specification vocabulary for WriteTo (properties C36). *)
From Coq Require Import ZArith List Bool.
From Verif Require Import Base Printer.
Import ListNotations.
Open Scope Z_scope.

(** The UTF-8 encoding of a rune (RFC 3629). *)
Definition utf8 (r : rune) : list Z :=
  if r <? 128 then [r]
  else if r <? 2048 then [192 + r / 64; 128 + r mod 64]
  else if r <? 65536 then [224 + r / 4096; 128 + r / 64 mod 64; 128 + r mod 64]
  else [240 + r / 262144; 128 + r / 4096 mod 64; 128 + r / 64 mod 64; 128 + r mod 64].

(** The bytes of a Go string. *)
Definition bytes (s : gostring) : list Z := flat_map utf8 s.

(** The io.Writer contract: Write returns the number of bytes accepted, between
    0 and len(p), and an error if that is less than len(p). *)
Definition obeys {W E} (write : W -> gostring -> W * Z * option E) : Prop :=
  forall w b, let '(_, n, e) := write w b in
    0 <= n <= zlen (bytes b) /\ (n < zlen (bytes b) -> e <> None).

(** One Write call as seen by the writer: the bytes offered, how many it
    accepted, the error it returned. *)
Record wcall (E : Type) := mkCall { offered : list Z; taken : Z; failed : option E }.
Arguments mkCall {E} offered taken failed.
Arguments offered {E} w.
Arguments taken {E} w.
Arguments failed {E} w.

(** The same writer keeping a log of the calls it receives. *)
Definition logged {W E} (write : W -> gostring -> W * Z * option E)
  (s : W * list (wcall E)) (b : gostring) : (W * list (wcall E)) * Z * option E :=
  let '(w, n, e) := write (fst s) b in ((w, snd s ++ [mkCall (bytes b) n e]), n, e).

(** The bytes the writer accepted over a log of calls. *)
Definition accepted {E} (log : list (wcall E)) : list Z :=
  flat_map (fun c => firstn (Z.to_nat (taken c)) (offered c)) log.

(** [e] is the first error of the log, and no call follows it. *)
Definition stops_at {E} (log : list (wcall E)) (e : option E) : Prop :=
  match e with
  | None => forall c, In c log -> failed c = None
  | Some x => exists l c, log = l ++ [c] /\ failed c = Some x /\
                          forall c', In c' l -> failed c' = None
  end.

Definition prefix {A} (a b : list A) : Prop := exists c, b = a ++ c.
