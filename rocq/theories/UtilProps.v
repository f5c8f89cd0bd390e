(** C47, C48, C49: widths, indentation and paths (util.c). *)
From Verif Require Import Base StrModel StrProofs UtilModel UtilProofs.

(** [display_col] moves one column per byte, to the next multiple of eight on a tab
    and to zero on a newline (UtilProofs.v). *)
Theorem C47_strwidth : forall str pos, strwidth str pos = display_col str pos.
Proof. exact strwidth_spec. Qed.
Theorem C47_colwidth : forall str cno, 1 <= cno -> colwidth str cno = S (display_col str (cno - 1)).
Proof. exact colwidth_spec. Qed.
Theorem C47_compose : forall a b pos, strwidth (a ++ b) pos = strwidth b (strwidth a pos).
Proof. intros. rewrite !strwidth_spec. apply display_col_app. Qed.
Example C47_ex : strwidth (s2b "ab" ++ [TAB] ++ s2b "c" ++ [NL; TAB] ++ s2b "xyz") 5 = 11
  /\ colwidth ([TAB; TAB] ++ s2b "a") 1 = 18.
Proof. vm_compute; auto. Qed.

(** Indentation: only tabs followed by fewer than eight spaces (or only spaces), of
    the requested width when starting at a tab stop or when tabs are not used. *)
Theorem C48_strindent : forall indent tabs pos o p,
  strindent indent tabs pos = (o, p) ->
  p = display_col o pos /\
  Forall (fun c => c = TAB \/ c = SP) o /\
  (tabs = false -> o = repeat SP indent) /\
  (tabs = true -> exists t s, o = repeat TAB t ++ repeat SP s /\ s < 8 /\ 8 * t + s = indent) /\
  (tabs = false \/ pos mod 8 = 0 -> p = pos + indent).
Proof. exact strindent_spec. Qed.
Example C48_ex : strindent 20 true 8 = ([TAB; TAB; SP; SP; SP; SP], 28).
Proof. vm_compute; reflexivity. Qed.
(** Off a tab stop the width with tabs is wrong in general. *)
Theorem C48_unaligned_refuted : exists indent pos, snd (strindent indent true pos) <> pos + indent.
Proof. exists 8, 3. vm_compute. discriminate. Qed.

(** The last components of a path; leading empty ones of the slice are dropped. *)
Theorem C49_path_slice : forall path n, exists ps,
  join ["/"%char] ps = path /\ ps <> [] /\ Forall (fun p => ~ In "/"%char p) ps /\
  path_slice path n =
    Some (if length ps <? n then path else join ["/"%char] (drop_empty (skipn (length ps - n) ps))).
Proof. exact path_slice_spec. Qed.
Example C49_path_ex : path_slice (s2b "/home/u/src/foo.h") 2 = Some (s2b "src/foo.h")
  /\ path_slice (s2b "foo.h") 2 = Some (s2b "foo.h").
Proof. vm_compute; auto. Qed.
(** "/a/b" has three components, but slicing it to three drops the leading slash. *)
Theorem C49_absolute_refuted : exists ps, Forall (fun p => ~ In "/"%char p) ps /\
  path_slice (join ["/"%char] ps) (length ps) <> Some (join ["/"%char] ps).
Proof.
  exists [[]; s2b "a"; s2b "b"]. split.
  - repeat constructor; simpl; intuition discriminate.
  - vm_compute. discriminate.
Qed.
Theorem C49_header : forall path,
  is_path_header path = true <-> exists base, path = base ++ s2b ".h".
Proof. exact is_path_header_spec. Qed.
(** Serialised text is printable. *)
Theorem C47_strnice_printable : forall str, Forall (fun c => isprint c = true) (strnice str).
Proof. exact strnice_print. Qed.

(** The escapes of C that are used, read back. *)
Definition hexval (c : byte) : nat :=
  if (48 <=? nat_of_ascii c) && (nat_of_ascii c <=? 57) then nat_of_ascii c - 48 else nat_of_ascii c - 97 + 10.
Fixpoint unescape (s : bytes) : bytes :=
  match s with
  | "\"%char :: "n"%char :: r => ascii_of_nat 10 :: unescape r
  | "\"%char :: "f"%char :: r => ascii_of_nat 12 :: unescape r
  | "\"%char :: "t"%char :: r => ascii_of_nat 9 :: unescape r
  | "\"%char :: "r"%char :: r => ascii_of_nat 13 :: unescape r
  | "\"%char :: "x"%char :: h :: l :: r => ascii_of_nat (16 * hexval h + hexval l) :: unescape r
  | "\"%char :: c :: r => c :: unescape r
  | c :: r => c :: unescape r
  | [] => []
  end.
(** Serialised text without backslashes can be read back. *)
Theorem C47_strnice_round_trip : forall str, ~ In "\"%char str -> unescape (strnice str) = str.
Proof.
  induction str as [|c r IH]; intros H; [reflexivity|]. unfold strnice. cbn [flat_map]. fold (strnice r).
  assert (E : unescape (strnice1 c ++ strnice r) = c :: unescape (strnice r)).
  { assert (N : c <> "\"%char) by (intros ->; apply H; left; reflexivity). generalize (strnice r). intros t. destruct c as [[] [] [] [] [] [] [] []]; solve [reflexivity|exfalso; apply N; reflexivity]. }
  rewrite E, IH; [reflexivity|]. intros K. apply H. right. exact K.
Qed.
(** Backslashes are not escaped. *)
Theorem C47_strnice_refuted : exists a b, a <> b /\ strnice a = strnice b.
Proof. exists (s2b "\n"), [NL]. split; [discriminate|reflexivity]. Qed.
Example C47_strnice_ex : strnice (s2b "a" ++ [TAB; NL] ++ s2b "b" ++ [ascii_of_nat 171]) = s2b "a\t\nb\xab".
Proof. reflexivity. Qed.

Print Assumptions C47_strwidth.
Print Assumptions C47_colwidth.
Print Assumptions C47_compose.
Print Assumptions C48_strindent.
Print Assumptions C48_unaligned_refuted.
Print Assumptions C49_path_slice.
Print Assumptions C49_absolute_refuted.
Print Assumptions C49_header.
Print Assumptions C47_strnice_printable.
Print Assumptions C47_strnice_round_trip.
Print Assumptions C47_strnice_refuted.
