(** C22: what counts as exceeding the limit. *)
From Coq Require Import Lia ZArith.
From Verif Require Import Base StrModel UtilModel UtilProofs DocModel.

(** ** Specification *)
(** Characters past the limit of a line that ends in column [c]. *)
Definition past (limit c : nat) : Z := Z.of_nat (c - limit).
Definition print_all (limit : nat) (ss : list bytes) (st : dstate) : dstate := fold_left (fun st s => doc_column limit s st) ss st.

(** ** Proofs *)
Lemma display_mono : forall s pos, ~ In NL s -> pos <= display_col s pos.
Proof.
  induction s as [|c s IH]; intros pos N; [apply le_n|]. change (display_col (c :: s) pos) with (display_col s (col_step pos c)). assert (Q : pos <= col_step pos c).
  { unfold col_step. destruct (c =c TAB); [rewrite <- next_tab; lia|]. destruct (Ascii.eqb_spec c NL) as [->|]; [exfalso; apply N; left; reflexivity|lia]. }
  specialize (IH (col_step pos c)). assert (~ In NL s) by (intros H; apply N; right; exact H). specialize (IH H). lia.
Qed.
Lemma exceeds_past : forall limit a c, a <= c -> column_exceeds limit a c = (past limit c - past limit a)%Z.
Proof.
  intros limit a c L. unfold column_exceeds, past. destruct (Nat.ltb_spec limit c); [destruct (Nat.ltb_spec a limit)|]; lia.
Qed.
(** However a line is divided into pieces, what is counted while printing them is the number of
    characters past the limit of the whole, modulo 2^32; nothing is counted twice. *)
Theorem C22_exceeds : forall limit ss st, Forall (fun s => ~ In NL s) ss ->
  let c := display_col (concat ss) (o_col st) in
  o_col (print_all limit ss st) = c /\
  (o_sexceeds (print_all limit ss st) mod 4294967296 = (o_sexceeds st + (past limit c - past limit (o_col st))) mod 4294967296)%Z.
Proof.
  intros limit. induction ss as [|s ss IH]; intros st F; cbn zeta; [split; [reflexivity|]; cbn [print_all fold_left concat display_col]; f_equal; lia|].
  apply Forall_cons_iff in F. destruct F as [F1 F2]. destruct (IH (doc_column limit s st) F2) as [I1 I2]. change (print_all limit (s :: ss) st) with (print_all limit ss (doc_column limit s st)). cbn [concat]. rewrite display_col_app.
  assert (C : o_col (doc_column limit s st) = display_col s (o_col st)) by (unfold doc_column; cbn; apply strwidth_spec).
  assert (X : o_sexceeds (doc_column limit s st) = ((o_sexceeds st + (past limit (display_col s (o_col st)) - past limit (o_col st))) mod 4294967296)%Z).
  { unfold doc_column. cbn [o_sexceeds set_sexceeds]. rewrite strwidth_spec, exceeds_past by (apply display_mono; exact F1). reflexivity. }
  rewrite C in I1, I2. split; [exact I1|]. rewrite I2, X, Zplus_mod_idemp_l. f_equal. lia.
Qed.

(** ** Examples *)
(** Limit 5: "abc" up to column 3, "def" across the limit, "g" behind it: two characters. *)
Example C22_ex_exceeds : Forall (fun s => ~ In NL s) [s2b "abc"; s2b "def"; s2b "g"] /\
  o_sexceeds (print_all 5 [s2b "abc"; s2b "def"; s2b "g"] (doc_state_init [] BREAK)) = 2%Z /\
  o_sexceeds (print_all 5 [s2b "abcdefg"] (doc_state_init [] BREAK)) = 2%Z.
Proof. split; [repeat constructor; intros H; cbn in H; intuition discriminate|]. vm_compute. split; reflexivity. Qed.

Print Assumptions C22_exceeds.
