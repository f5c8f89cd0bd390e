(** C54: ranges of lines are exact slices of the input. *)
From Verif Require Import Base StrModel StrProofs UtilModel UtilProofs TokenModel LexModel LexSpec LexRefine LexTrivia LexBlank CommentModel CommentProofs LexMain LexAll LexProps LinesModel.

(** ** Specification: a text is a sequence of lines, each with its newline but the last. *)
Inductive split_lines : bytes -> list bytes -> Prop :=
| sl_last : forall l, ~ In NL l -> split_lines l [l]
| sl_more : forall l s ls, ~ In NL l -> split_lines s ls -> split_lines (l ++ NL :: s) ((l ++ [NL]) :: ls).

(** Every text is. *)
Lemma split_exists : forall s, exists ls, split_lines s ls.
Proof.
  induction s as [|c s [ls IH]]; [exists [[]]; apply sl_last; intros []|].
  destruct (ascii_dec c NL) as [->|N].
  - exists (([] ++ [NL]) :: ls). apply (sl_more [] s ls); [intros []|exact IH].
  - inversion IH as [l H|l r ls' H H']; subst.
    + exists [c :: s]. apply sl_last. intros [E|E]; [congruence|auto].
    + exists (((c :: l) ++ [NL]) :: ls'). apply (sl_more (c :: l) r ls'); [|exact H']. intros [E|E]; [congruence|auto].
Qed.

Lemma count_notin : forall l, ~ In NL l -> count_occ_b NL l = 0.
Proof. induction l as [|c l IH]; cbn [count_occ_b]; intros H; [reflexivity|]. rewrite IH by (intros E; apply H; right; exact E). destruct (Ascii.eqb_spec c NL); [exfalso; apply H; left; auto|]; auto. Qed.

(** Where the lines start. *)
Definition line_start (ls : list bytes) (i : nat) : nat := length (concat (firstn i ls)).
Lemma split_concat : forall s ls, split_lines s ls -> concat ls = s.
Proof. induction 1; cbn [concat]; [apply app_nil_r|]. rewrite IHsplit_lines, <- app_assoc. reflexivity. Qed.
Lemma split_starts : forall s ls, split_lines s ls -> length ls = S (count_occ_b NL s) /\
  forall i, i < length ls -> count_occ_b NL (firstn (line_start ls i) s) = i /\ (line_start ls i = 0 \/ nth_error s (pred (line_start ls i)) = Some NL).
Proof.
  unfold line_start. induction 1 as [l H|l s ls H H' [IH1 IH2]].
  - split; [rewrite count_notin; auto|]. intros i Hi. cbn [length] in Hi. replace i with 0 by lia. cbn. auto.
  - split.
    + cbn [length]. rewrite count_app. cbn [count_occ_b]. rewrite count_notin by exact H. rewrite IH1. destruct (Ascii.eqb_spec NL NL); [lia|congruence].
    + intros [|i] Hi; [cbn; auto|]. cbn [length] in Hi. destruct (IH2 i) as [I1 I2]; [lia|]. cbn [firstn concat]. rewrite !app_length. cbn [length].
      set (n := length (concat (firstn i ls))) in *. replace (length l + 1 + n) with (length l + S n) by lia. split.
      * rewrite firstn_app. rewrite firstn_all2 by lia. replace (length l + S n - length l) with (S n) by lia. cbn [firstn]. rewrite count_app. cbn [count_occ_b]. rewrite count_notin by exact H. rewrite I1. destruct (Ascii.eqb_spec NL NL); [lia|congruence].
      * right. replace (pred (length l + S n)) with (length l + n) by lia. rewrite nth_error_app2 by lia. replace (length l + n - length l) with n by lia.
        destruct I2 as [-> |I2]; [reflexivity|]. destruct n as [|n]; [reflexivity|]. exact I2.
Qed.

Section Lines.
Variable inp : bytes.
Variable in_diff : nat -> bool.
Variable usetabs : bool.
Variable align : bytes -> option bytes.
Notation L := (length inp).
Notation trim := (ctrim usetabs).

(** Reading ends with the whole input consumed. *)
Lemma read_all_end : forall fuel lx v, R inp lx v -> L - clamp inp v < fuel -> exists v', R inp (snd (read_all inp in_diff trim align fuel lx)) v' /\ clamp inp v' = L.
Proof.
  induction fuel; intros lx v HR Hf; [lia|]. cbn [read_all].
  destruct (clang_read_R inp in_diff trim align (ctrim_nl usetabs) lx v HR) as (lx1 & E1 & HR1 & H1).
  rewrite E1. pose proof (p_read_spec inp in_diff trim align (ctrim_nl usetabs) v (R_le _ _ _ HR)) as Hp.
  set (k := fst (p_read inp in_diff trim align v)) in *. set (v1 := snd (p_read inp in_diff trim align v)) in *.
  destruct Hp as (P1 & P2 & P3 & P4).
  destruct (is_eof k) eqn:Ee.
  - apply is_eof_iff in Ee. specialize (P4 Ee). cbn [fst snd]. exists v1. split; [exact HR1|].
    apply (tiles_in inp _ _ _ (k_tok k)) in P2; [|unfold token_toks; apply in_or_app; right; left; auto].
    pose proof (clamp_le inp v1). lia.
  - assert (Hne : ~ eof_tok k) by (intros H; apply is_eof_iff in H; congruence).
    assert (Hprog : clamp inp v < clamp inp v1).
    { destruct P3 as (_ & (_ & _ & fl & _ & Hms) & _). apply (main_span_lt inp) in Hms; auto.
      apply (tiles_in inp _ _ _ (k_tok k)) in P2; [|unfold token_toks; apply in_or_app; right; left; auto]. lia. }
    destruct (IHfuel lx1 v1 HR1) as (v2 & HR2 & E2).
    { pose proof (clamp_le inp v1). lia. }
    destruct (read_all inp in_diff trim align fuel lx1) as [r lx2]. cbn [fst snd] in *. eauto.
Qed.

Lemma table : forall ls, split_lines inp ls -> l_lines (snd (tokenized inp in_diff usetabs align)) = List.map (line_start ls) (seq 0 (length ls)).
Proof.
  intros ls SL. destruct (split_starts _ _ SL) as [LN ST].
  assert (Q : snd (tokenized inp in_diff usetabs align) = snd (read_all inp in_diff trim align (FUEL inp) lexer_init)).
  { unfold tokenized, tokenize. destruct (read_all inp in_diff trim align (FUEL inp) lexer_init). reflexivity. }
  rewrite Q. destruct (read_all_end (FUEL inp) lexer_init 0 (R_init inp)) as (v & HR & E); [unfold FUEL; lia|].
  destruct HR as (_ & _ & LO & LL & _). rewrite E in LL. set (tb := l_lines _) in *. clearbody tb.
  assert (ALL : nlc inp L = count_occ_b NL inp) by (unfold nlc; rewrite firstn_all; reflexivity).
  assert (LT : length tb = length ls).
  { destruct (Nat.lt_trichotomy (length tb) (length ls)) as [A|[A|A]]; [lia|exact A|]. exfalso. destruct (nth_error tb (length ls)) as [lo|] eqn:N; [|apply nth_error_None in N; lia].
    destruct (LO _ _ N) as (B & C & _). pose proof (nlc_mono inp lo L B). lia. }
  apply (nth_ext _ _ 0 0); [rewrite map_length, seq_length; exact LT|]. intros i Hi.
  rewrite (nth_indep (List.map (line_start ls) (seq 0 (length ls))) 0 (line_start ls 0)) by (rewrite map_length, seq_length; lia). rewrite map_nth, seq_nth by lia. cbn [Nat.add].
  destruct (nth_error tb i) as [lo|] eqn:N; [|apply nth_error_None in N; lia]. rewrite (nth_error_nth _ _ _ N).
  destruct (LO _ _ N) as (B1 & B2 & B3). destruct (ST i) as [S1 S2]; [lia|]. fold (nlc inp (line_start ls i)) in S1.
  assert (U : forall a b, a < b -> nth_error inp (pred b) = Some NL -> nlc inp a < nlc inp b).
  { intros a b H1 H2. destruct b as [|b]; [lia|]. cbn [pred] in H2. rewrite (nlc_S inp b NL H2). pose proof (nlc_mono inp a b). destruct (Ascii.eqb_spec NL NL); [lia|congruence]. }
  destruct (Nat.lt_trichotomy lo (line_start ls i)) as [A|[A|A]]; [|exact A|].
  - destruct S2 as [S2|S2]; [lia|]. specialize (U _ _ A S2). lia.
  - destruct B3 as [B3|B3]; [lia|]. specialize (U _ _ A B3). lia.
Qed.
End Lines.

Lemma start_mono : forall ls a b, a <= b -> line_start ls a <= line_start ls b.
Proof.
  intros ls a b H. unfold line_start. replace (firstn a ls) with (firstn a (firstn b ls)) by (rewrite firstn_firstn; f_equal; lia).
  rewrite <- (firstn_skipn a (firstn b ls)) at 2. rewrite concat_app, app_length. lia.
Qed.
Lemma slice_lines : forall ls a b, a <= b -> slice (concat ls) (line_start ls a) (line_start ls b) = concat (firstn (b - a) (skipn a ls)).
Proof.
  intros ls a b H. unfold slice, line_start.
  assert (E1 : skipn (length (concat (firstn a ls))) (concat ls) = concat (skipn a ls)).
  { rewrite <- (firstn_skipn a ls) at 2. rewrite concat_app, skipn_app, skipn_all, Nat.sub_diag. reflexivity. }
  rewrite E1. rewrite <- (firstn_skipn (b - a) (skipn a ls)) at 1. rewrite concat_app.
  assert (E2 : length (concat (firstn b ls)) - length (concat (firstn a ls)) = length (concat (firstn (b - a) (skipn a ls)))).
  { replace b with (a + (b - a)) at 1 by lia. rewrite <- (firstn_skipn a (firstn (a + (b - a)) ls)). rewrite firstn_firstn. replace (Nat.min a (a + (b - a))) with a by lia.
    rewrite skipn_firstn_comm. replace (a + (b - a) - a) with (b - a) by lia. rewrite concat_app, app_length. lia. }
  rewrite E2. rewrite firstn_app, firstn_all, Nat.sub_diag. cbn [firstn]. apply app_nil_r.
Qed.

(** The bytes of a result. *)
Definition slice_bytes (inp : bytes) (r : lines_res) : option bytes := match r with LSlice o n => Some (slice inp o (o + n)) | _ => None end.

(** For every input: the lines [beg, end) are exactly lines beg, ..., end - 1 of the input
    and end 0 stands for everything up to the end. *)
Theorem C54_lines : forall inp in_diff usetabs align ls beg ende,
  let lx := snd (tokenized inp in_diff usetabs align) in
  split_lines inp ls -> 1 <= beg <= length ls -> ende = 0 \/ beg <= ende <= length ls ->
  slice_bytes inp (get_lines inp lx beg ende) = Some (concat (firstn (if ende =? 0 then length ls else ende - beg) (skipn (beg - 1) ls))).
Proof.
  intros inp in_diff usetabs align ls beg ende lx SL HB HE. unfold get_lines, lx. rewrite (table _ _ _ _ _ SL). rewrite map_length, seq_length.
  assert (B1 : (length ls <? beg) = false) by (apply Nat.ltb_ge; lia). assert (B2 : (length ls <? ende) = false) by (apply Nat.ltb_ge; lia). rewrite B1, B2. cbn [orb].
  destruct beg as [|b]; [lia|]. assert (NT : forall i, i < length ls -> nth_error (List.map (line_start ls) (seq 0 (length ls))) i = Some (line_start ls i)).
  { intros i Hi. rewrite nth_error_map. rewrite (nth_error_nth' (seq 0 (length ls)) 0) by (rewrite seq_length; exact Hi). rewrite seq_nth by exact Hi. reflexivity. }
  rewrite NT by lia. pose proof (split_concat _ _ SL) as C.
  assert (FULL : line_start ls (length ls) = length inp) by (unfold line_start; rewrite firstn_all, C; reflexivity).
  replace (S b - 1) with b by lia. destruct ende as [|e].
  - destruct (Nat.leb_spec (line_start ls b) (length inp)) as [Q|Q]; [|pose proof (start_mono ls b (length ls)); lia].
    cbn [slice_bytes Nat.eqb]. f_equal. replace (line_start ls b + (length inp - line_start ls b)) with (line_start ls (length ls)) by lia. rewrite <- C. rewrite slice_lines by lia.
    rewrite (firstn_all2 (skipn b ls)) by (rewrite skipn_length; lia). rewrite (firstn_all2 (skipn b ls)) by (rewrite skipn_length; lia). reflexivity.
  - destruct HE as [HE|HE]; [discriminate|]. rewrite NT by lia. destruct (Nat.leb_spec (line_start ls b) (line_start ls e)) as [Q|Q]; [|pose proof (start_mono ls b e); lia].
    cbn [slice_bytes Nat.eqb]. f_equal. replace (line_start ls b + (line_start ls e - line_start ls b)) with (line_start ls e) by lia. rewrite <- C. rewrite slice_lines by lia. f_equal.
Qed.
(** Lines past the end are refused. *)
Theorem C54_past : forall inp in_diff usetabs align ls beg ende,
  let lx := snd (tokenized inp in_diff usetabs align) in
  split_lines inp ls -> length ls < beg \/ length ls < ende -> get_lines inp lx beg ende = LNone.
Proof.
  intros inp in_diff usetabs align ls beg ende lx SL H. unfold get_lines, lx. rewrite (table _ _ _ _ _ SL). rewrite map_length, seq_length.
  destruct H as [H|H]; apply Nat.ltb_lt in H; rewrite H; rewrite ?orb_true_r; reflexivity.
Qed.
(** Line 0 does not exist; asking for it reads in front of the table. *)
Theorem C54_zero_refuted : exists inp in_diff usetabs align ende, get_lines inp (snd (tokenized inp in_diff usetabs align)) 0 ende = LOut.
Proof. exists (s2b "int x;"), (fun _ => false), false, (fun _ => None), 1. vm_compute. reflexivity. Qed.
(** So does a range that ends before it begins: its length does not fit. *)
Theorem C54_reversed_refuted : exists inp in_diff usetabs align, get_lines inp (snd (tokenized inp in_diff usetabs align)) 2 1 = LOut.
Proof. exists (s2b "int" ++ [NL] ++ s2b "x;"), (fun _ => false), false, (fun _ => None). vm_compute. reflexivity. Qed.

Definition in54 : bytes := s2b "int a;" ++ [NL; NL] ++ s2b "int b;" ++ [NL] ++ s2b "int c;".
Example C54_ex : split_lines in54 [s2b "int a;" ++ [NL]; [NL]; s2b "int b;" ++ [NL]; s2b "int c;"] /\
  slice_bytes in54 (get_lines in54 (snd (tokenized in54 (fun _ => false) false (fun _ => None))) 2 4) = Some ([NL] ++ s2b "int b;" ++ [NL]).
Proof.
  split; [|vm_compute; reflexivity]. unfold in54. apply (sl_more (s2b "int a;")); [vm_compute; intuition discriminate|]. apply (sl_more []); [intros []|]. apply (sl_more (s2b "int b;")); [vm_compute; intuition discriminate|].
  apply sl_last. vm_compute; intuition discriminate.
Qed.

Print Assumptions C54_lines.
Print Assumptions C54_past.
