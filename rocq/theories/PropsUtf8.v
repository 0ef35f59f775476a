(** Property C47: bytes in, bytes out. *)
From Coq Require Import ZArith String List Bool Lia.
From Verif Require Import Base Dialect Token Lexer LexSpec LexFacts LexPos AST Prog Parser ParseSpec Printer Render RoundSpec RtRound SrcThms PropsRound Utf8 Utf8Spec Utf8Thms.
Import ListNotations.
Open Scope list_scope.
Open Scope Z_scope.

(** C47.  The parser sees the characters of UTF-8 bytes, ... *)
Theorem C47_read : forall l bs, utf8_text l bs -> decode bs = l.
Proof. exact decode_text. Qed.
Print Assumptions C47_read.

(** ... and writes UTF-8. *)
Theorem C47_written : forall l, Forall scalar l -> utf8_text l (encode l).
Proof. exact encode_text. Qed.
Print Assumptions C47_written.

(** C17 for bytes: the bytes of readable statements are read back as the
    statements. *)
Theorem C47_scripts : forall d l, dialect_words d ->
  forallb (fun p => wf_stmt d (fst p) && blanks (snd p)) l = true -> Forall scalar (script l) ->
  exists ss, parse_bytes d (encode (script l)) = ROk ss /\ map bare_stmt ss = map bare_stmt (map fst l).
Proof. intros d l D W S. unfold parse_bytes. rewrite (decode_encode _ S). exact (C17_scripts d l D W). Qed.
Print Assumptions C47_scripts.

(** Whatever the bytes, the characters are scalar values, so everything the
    parser keeps of them can be written as UTF-8.  *)
Theorem C47_scalars : forall bs, Forall (fun b => 0 <= b <= 255) bs -> Forall scalar (decode bs).
Proof. exact decode_scalar. Qed.
Print Assumptions C47_scalars.

(** Bytes are not lost exactly if they are UTF-8; otherwise U+FFFD appears. *)
Theorem C47_kept : forall bs, Forall (fun b => 0 <= b <= 255) bs ->
  (encode (decode bs) = bs <-> exists l, utf8_text l bs) /\
  ((forall l, ~ utf8_text l bs) -> In rune_error (decode bs)).
Proof. intros bs H. split; [exact (kept_iff bs H)|exact (garbled bs H)]. Qed.
Print Assumptions C47_kept.

(** What is read from any bytes: each character, and U+FFFD for each byte that
    starts none; there is only one such reading. *)
Theorem C47_any_bytes : forall bs rs, Forall (fun b => 0 <= b <= 255) bs -> decoded bs rs <-> decode bs = rs.
Proof. exact decoded_iff. Qed.
Print Assumptions C47_any_bytes.

(** The width of an unquoted word in Pos is the number of its bytes. *)
Theorem C47_word_width : forall d p text l rest t s, LexSpec.reads d p text l rest -> Forall scalar text -> In (t, s) l ->
  (exists w, tkind t = SQLKeyword /\ tval t = VWord w /\ wquote w = 0) ->
  pline (tto t) = pline (tfrom t) /\ pcol (tto t) = pcol (tfrom t) + Z.of_nat (List.length (encode s)).
Proof.
  intros d p text l rest t s R S I (w & K & V & Q). destruct (in_split _ _ I) as (a & b & ->).
  destruct (reads_lexemes _ _ _ _ _ R a t s b eq_refl) as [_ E].
  destruct (reads_concat _ _ _ _ _ R) as [-> _].
  rewrite encode_length.
  - rewrite E, K, V. cbn [token_end]. rewrite Q. cbn. split; reflexivity.
  - rewrite map_app, concat_app in S. cbn [map snd List.concat] in S. rewrite !Forall_app in S. tauto.
Qed.
Print Assumptions C47_word_width.

(** A statement with characters of one, two, three and four bytes. *)
Definition wide : list rune := gs "SELECT 'a" ++ [233; 8364; 128512] ++ gs "';".
Example C47_ex : Forall scalar wide /\ encode wide = gs "SELECT 'a" ++ [195; 169; 226; 130; 172; 240; 159; 152; 128] ++ gs "';" /\
  exists s, parse_bytes generic (encode wide) = ROk [s] /\ stmt_bytes s ++ gs ";" = encode wide.
Proof.
  split; [repeat (constructor; [unfold scalar; cbn; lia|]); constructor|]. split; [vm_compute; reflexivity|].
  eexists. split; [vm_compute; reflexivity|]. vm_compute. reflexivity.
Qed.

(** Text in another encoding is not rejected and not kept: two literals become
    the same statement, which is printed as neither. *)
Theorem C47_other_encodings_refuted : exists a b s s', a <> b /\
  parse_bytes generic a = ROk [s] /\ parse_bytes generic b = ROk [s'] /\ s = s' /\
  stmt_bytes s ++ gs ";" <> a /\ stmt_bytes s ++ gs ";" <> b.
Proof.
  exists (gs "SELECT '" ++ [233] ++ gs "';"), (gs "SELECT '" ++ [232] ++ gs "';"). do 2 eexists.
  split; [discriminate|]. split; [vm_compute; reflexivity|]. split; [vm_compute; reflexivity|]. split; [reflexivity|].
  split; vm_compute; discriminate.
Qed.
Print Assumptions C47_other_encodings_refuted.
