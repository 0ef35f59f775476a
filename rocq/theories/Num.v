(** Numbers: the parts of Go's strconv that the code uses. *)
From Coq Require Import ZArith List Bool String Decimal DecimalN.
From Verif Require Import Base AST.
Import ListNotations.
Open Scope Z_scope.

(** Decimal digits of Coq's [Decimal.uint] as runes. *)
Fixpoint uint_gs (u : uint) : gostring :=
  match u with
  | Nil => []
  | D0 u => 48 :: uint_gs u | D1 u => 49 :: uint_gs u | D2 u => 50 :: uint_gs u
  | D3 u => 51 :: uint_gs u | D4 u => 52 :: uint_gs u | D5 u => 53 :: uint_gs u
  | D6 u => 54 :: uint_gs u | D7 u => 55 :: uint_gs u | D8 u => 56 :: uint_gs u
  | D9 u => 57 :: uint_gs u
  end.

(** The reverse; [None] if some rune is not a decimal digit. *)
Fixpoint gs_uint (s : gostring) : option uint :=
  match s with
  | [] => Some Nil
  | r :: s' =>
      match gs_uint s' with
      | None => None
      | Some u =>
          if r =? 48 then Some (D0 u) else if r =? 49 then Some (D1 u)
          else if r =? 50 then Some (D2 u) else if r =? 51 then Some (D3 u)
          else if r =? 52 then Some (D4 u) else if r =? 53 then Some (D5 u)
          else if r =? 54 then Some (D6 u) else if r =? 55 then Some (D7 u)
          else if r =? 56 then Some (D8 u) else if r =? 57 then Some (D9 u)
          else None
      end
  end.

(** Go strconv.FormatInt(i, 10) / AppendInt. *)
Definition format_int (z : Z) : gostring :=
  if z <? 0 then 45 :: uint_gs (N.to_uint (Z.to_N (- z)))
  else uint_gs (N.to_uint (Z.to_N z)).

(** The number written by a string of decimal digits. *)
Definition digits_val (s : gostring) : option Z :=
  match gs_uint s with
  | Some u => Some (Z.of_N (N.of_uint u))
  | None => None
  end.

Definition max_int : Z := 9223372036854775807.

(** Go strconv.Atoi on the text of a Number token (digits and dots, starting
    with a digit; never a sign), with int of 64 bits.  [AOk v]: no error;
    [ARange v]: ErrRange, the value returned beside it is [v] (saturated);
    [ASyntax]: ErrSyntax, value 0. *)
Inductive atoi_res := AOk (v : Z) | ARange (v : Z) | ASyntax.
Definition atoi (s : gostring) : atoi_res :=
  match s with
  | [] => ASyntax
  | _ => match digits_val s with
         | Some v => if v <=? max_int then AOk v else ARange max_int
         | None => ASyntax
         end
  end.

(** Nearest float64 to the positive rational n/d, ties to even; [None] when it
    overflows.  2^52 <= m < 2^53 or e = -1074. *)
Definition round_rat (n d : Z) : option f64 :=
  if n =? 0 then Some (mkF 0 0)
  else
    (* e0 with 2^52 <= n/(d*2^e0) < 2^54, lowered by one if one too large *)
    let e0 := Z.log2 n - Z.log2 d - 53 in
    let fits e := (* n/(d*2^e) >= 2^52 *)
      if 0 <=? e then 2 ^ 52 * d * 2 ^ e <=? n else 2 ^ 52 * d <=? n * 2 ^ (- e) in
    let e1 := if fits (e0 + 1) then e0 + 1 else e0 in
    let e := Z.max e1 (-1074) in
    let num := if 0 <=? e then n else n * 2 ^ (- e) in
    let den := if 0 <=? e then d * 2 ^ e else d in
    let q := num / den in
    let r := num mod den in
    let m := if 2 * r <? den then q else if den <? 2 * r then q + 1
             else if Z.even q then q else q + 1 in
    let '(m, e) := if m =? 2 ^ 53 then (2 ^ 52, e + 1) else (m, e) in
    if 971 <? e then None else if m =? 0 then Some (mkF 0 0) else Some (mkF m e).

(** Splits at the first dot (rune 46). *)
Fixpoint split_dot (s : gostring) : gostring * option gostring :=
  match s with
  | [] => ([], None)
  | r :: s' => if r =? 46 then ([], Some s')
               else let '(a, b) := split_dot s' in (r :: a, b)
  end.

(** Go strconv.ParseFloat(s, 64) on digits and dots: [None] is an error (more
    than one dot, or out of range).  Go's correct rounding is [round_rat]. *)
Definition parse_float (s : gostring) : option f64 :=
  let '(a, b) := split_dot s in
  let frac := match b with Some f => f | None => [] end in
  match digits_val (a ++ frac), (a ++ frac) with
  | Some n, _ :: _ => round_rat n (10 ^ zlen frac)
  | _, _ => None
  end.

(** Writes the integer [n] scaled by 10^-k, k digits after the dot; no dot if
    k = 0. *)
Definition put_dot (n : Z) (k : Z) : gostring :=
  let ds := format_int n in
  if k =? 0 then ds
  else
    let pad := repeat 48 (Z.to_nat (k + 1 - zlen ds)) in
    let ds' := pad ++ ds in
    let i := (List.length ds' - Z.to_nat k)%nat in
    firstn i ds' ++ [46] ++ skipn i ds'.

Definition f64_eqb (a b : f64) : bool := (fm a =? fm b) && (fe a =? fe b).

Definition parses_to (s : gostring) (f : f64) : bool :=
  match parse_float s with Some g => f64_eqb f g | None => false end.

(** The value of f as a fraction num/den. *)
Definition f64_num (f : f64) : Z := if 0 <=? fe f then fm f * 2 ^ fe f else fm f.
Definition f64_den (f : f64) : Z := if 0 <=? fe f then 1 else 2 ^ (- fe f).

(** Candidates with k decimals (k may be negative: multiples of 10^-k). *)
Definition candidate (f : f64) (k : Z) : option gostring :=
  let num := f64_num f in
  let den := f64_den f in
  let num' := if 0 <=? k then num * 10 ^ k else num in
  let den' := if 0 <=? k then den else den * 10 ^ (- k) in
  let q := num' / den' in
  let near := 2 * (num' mod den') <=? den' in
  let show n := if 0 <=? k then put_dot n k else format_int (n * 10 ^ (- k)) in
  let lo := show q in
  let hi := show (q + 1) in
  if near then
    if parses_to lo f then Some lo else if parses_to hi f then Some hi else None
  else
    if parses_to hi f then Some hi else if parses_to lo f then Some lo else None.

Fixpoint shortest (f : f64) (k : Z) (fuel : nat) : option gostring :=
  match fuel with
  | O => None
  | S n => match candidate f k with
           | Some s => Some s
           | None => shortest f (k + 1) n
           end
  end.

(** The exact decimal expansion of f (finite because 10 = 2*5). *)
Definition exact_dec (f : f64) : gostring :=
  if 0 <=? fe f then format_int (fm f * 2 ^ fe f)
  else put_dot (fm f * 5 ^ (- fe f)) (- fe f).

(** Go strconv.AppendFloat(b, f, 'f', -1, 64): the decimal with the fewest
    digits that parses back to f.  The search starts at one significant digit;
    the exact expansion is only a fallback that makes the model total. *)
Definition format_float (f : f64) : gostring :=
  if fm f =? 0 then [48]
  else
    let k0 := - (Z.log2 (fm f) + fe f) * 30103 / 100000 - 2 in
    match shortest f k0 22 with
    | Some s => s
    | None => exact_dec f
    end.
