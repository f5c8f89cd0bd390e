(** Taking branches and folding them: what stays as it was, and that the invariants of
    LifeProofs hold throughout. *)
From Coq Require Import Permutation.
From Verif Require Import Base TokenModel StreamModel StreamProofs TokListModel TokListProofs BranchModel BranchProofs LifeProofs RecoverModel.

(** ** Fields that no operation touches *)
(** From one directive to the next ones of its conditional. *)
Inductive path (h : heap) : id -> id -> Prop :=
| path_one : forall a b, n_nx (h a) = Some b -> path h a b
| path_more : forall a b c, n_nx (h a) = Some b -> path h b c -> path h a c.
Lemma path_trans : forall h a b c, path h a b -> path h b c -> path h a c.
Proof. intros h a b c P Q. induction P; eapply path_more; eauto. Qed.

Record soft (h g : heap) (i : id) : Prop := {
  so_str : n_str (g i) = n_str (h i);
  so_lno : n_lno (g i) = n_lno (h i);
  so_cno : n_cno (g i) = n_cno (h i);
  so_flags : N.ldiff (n_flags (g i)) F_BRANCH = N.ldiff (n_flags (h i)) F_BRANCH;
  so_type : isdird h i = false -> n_type (g i) = n_type (h i);
  so_dir : isdird g i = true -> isdird h i = true;
  so_path : forall e, n_nx (g i) = Some e -> path h i e }.
Definition softs (h g : heap) : Prop := forall i, soft h g i.
Lemma softs_refl : forall h, softs h h.
Proof. intros h i. constructor; auto. intros e E. constructor; auto. Qed.
Lemma softs_path : forall h g, softs h g -> forall a b, path g a b -> path h a b.
Proof. intros h g S a b P. induction P; [apply (so_path _ _ _ (S a)); auto|]. eapply path_trans; [apply (so_path _ _ _ (S a)); eauto|auto]. Qed.
Lemma softs_trans : forall a b c, softs a b -> softs b c -> softs a c.
Proof.
  intros a b c A B i. destruct (A i), (B i). constructor; try congruence; auto.
  - intros K. rewrite so_type1; auto. destruct (isdird b i) eqn:E; auto. rewrite so_dir0 in K; auto.
  - intros e E. eapply softs_path; eauto.
Qed.

(** Everything but references, prefixes, suffixes and whether it is alive. *)
Definition still (h g : heap) : Prop := forall i,
  n_type (g i) = n_type (h i) /\ n_flags (g i) = n_flags (h i) /\ n_lno (g i) = n_lno (h i) /\ n_cno (g i) = n_cno (h i) /\ n_str (g i) = n_str (h i) /\
  n_pv (g i) = n_pv (h i) /\ n_nx (g i) = n_nx (h i) /\ n_parent (g i) = n_parent (h i).
Lemma still_refl : forall h, still h h.
Proof. intros h i. auto 10. Qed.
Lemma still_trans : forall a b c, still a b -> still b c -> still a c.
Proof. intros a b c A B i. destruct (A i) as (? & ? & ? & ? & ? & ? & ? & ?), (B i) as (? & ? & ? & ? & ? & ? & ? & ?). repeat split; congruence. Qed.
Lemma still_mod : forall h t f, (forall n, n_type (f n) = n_type n /\ n_flags (f n) = n_flags n /\ n_lno (f n) = n_lno n /\ n_cno (f n) = n_cno n /\ n_str (f n) = n_str n /\
  n_pv (f n) = n_pv n /\ n_nx (f n) = n_nx n /\ n_parent (f n) = n_parent n) -> still h (modify h t f).
Proof. intros h t f H i. destruct (Nat.eq_dec i t) as [->|N]; [rewrite mod_eq; apply H|rewrite mod_neq; auto 10]. Qed.
Lemma still_softs : forall h g, still h g -> softs h g.
Proof.
  intros h g S i. destruct (S i) as (A1 & A2 & A3 & A4 & A5 & A6 & A7 & A8). constructor; auto; try congruence.
  - unfold isdird. rewrite A1. auto.
  - intros e E. constructor. congruence.
Qed.
Lemma rele_still : forall fuel t h g, token_rele fuel t h = Some g -> still h g.
Proof.
  induction fuel as [|fuel IH]; intros t h g E; [discriminate|]. cbn [token_rele] in E. destruct (n_refs (h t)) as [|[|k]]; [discriminate| |].
  - set (rel := fix release (l : list id) (h0 : heap) {struct l} : option heap := match l with [] => Some h0 | p :: r => do h1 <- token_rele fuel p h0; release r h1 end) in *.
    assert (R : forall l h g, rel l h = Some g -> still h g).
    { induction l as [|p l IHl]; intros h0 g0 E0; cbn in E0; [injection E0 as <-; apply still_refl|]. destruct (token_rele fuel p h0) as [h1|] eqn:E1; [|discriminate].
      eapply still_trans; [eapply IH; eauto|]. apply IHl. exact E0. }
    destruct (rel (n_pre _) _) as [h1|] eqn:E1; [|discriminate]. destruct (rel (n_suf _) _) as [h2|] eqn:E2; [|discriminate]. injection E as <-.
    apply R in E1, E2. eapply still_trans; [apply (still_mod h t (set_refs 0)); intros; cbn; auto 10|]. eapply still_trans; [exact E1|]. eapply still_trans; [exact E2|].
    apply still_mod. intros; cbn; auto 10.
  - injection E as <-. apply still_mod. intros; cbn; auto 10.
Qed.

Lemma update_flags_softs : forall t h, softs h (update_flags t h).
Proof.
  intros t h i. destruct (update_flags_spec t h) as [A B C D]. destruct (Nat.eq_dec i t) as [->|N].
  - constructor; try (rewrite B; auto; fail).
    + unfold isdird. rewrite B. auto.
    + rewrite B. cbn. intros e E. constructor; auto.
  - constructor; unfold isdird; rewrite ?A by auto; auto. intros e E. constructor; auto.
Qed.

Lemma mod_softs : forall h t f, (forall n, n_str (f n) = n_str n /\ n_lno (f n) = n_lno n /\ n_cno (f n) = n_cno n /\ n_flags (f n) = n_flags n) ->
  (isdird h t = true \/ n_type (f (h t)) = n_type (h t)) -> (forall e, n_nx (f (h t)) = Some e -> path h t e) -> softs h (modify h t f).
Proof.
  intros h t f H Ty P i. destruct (Nat.eq_dec i t) as [->|N].
  - destruct (H (h t)) as (A & B & C & D). constructor; unfold isdird in *; rewrite ?mod_eq; auto; try congruence.
    + intros K. destruct Ty; congruence.
    + destruct Ty as [Ty|Ty]; [auto|rewrite Ty; auto].
  - constructor; unfold isdird; rewrite ?mod_neq by auto; auto. intros e E. constructor; auto.
Qed.
Lemma exhaust_softs : forall d h g, isdird h d = true -> branch_exhaust d h = Some g -> softs h g /\ forall i, i <> d -> n_type (g i) = n_type (h i) /\ n_nx (g i) = n_nx (h i) /\ n_pv (g i) = n_pv (h i).
Proof.
  intros d h g Hd E. unfold branch_exhaust in E. set (h1 := modify h d _) in E. destruct (n_parent (h1 d)) as [p|] eqn:Ep; [|discriminate].
  destruct (rele p (update_flags p h1)) as [h2|] eqn:E2; [|discriminate]. injection E as <-.
  assert (S1 : softs h h1) by (apply mod_softs; cbn; auto; discriminate).
  assert (S2 := rele_still _ _ _ _ E2). split.
  - eapply softs_trans; [exact S1|]. eapply softs_trans; [apply (update_flags_softs p)|]. eapply softs_trans; [apply still_softs; exact S2|].
    apply mod_softs; cbn; auto. intros e K. constructor; auto.
  - intros i N. rewrite mod_neq by auto. destruct (S2 i) as (-> & _ & _ & _ & _ & -> & -> & _).
    destruct (update_flags_spec p h1) as [U V _ _]. destruct (Nat.eq_dec i p) as [->|N2]; [rewrite V; cbn|rewrite U by auto]; unfold h1; rewrite mod_neq by auto; auto.
Qed.
Lemma parent_flags_softs : forall d h g, update_parent_flags d h = Some g -> softs h g /\ forall i, n_type (g i) = n_type (h i) /\ n_nx (g i) = n_nx (h i).
Proof.
  intros d h g E. unfold update_parent_flags in E. destruct (n_parent (h d)) as [p|]; [|discriminate]. injection E as <-. split; [apply update_flags_softs|].
  intros i. destruct (update_flags_spec p h) as [U V _ _]. destruct (Nat.eq_dec i p) as [->|N2]; [rewrite V; auto|rewrite U by auto; auto].
Qed.
Lemma mod_type : forall h t f i, (forall n, n_type (f n) = n_type n) -> n_type (modify h t f i) = n_type (h i).
Proof. intros h t f i H. destruct (Nat.eq_dec i t) as [->|N]; [rewrite mod_eq; auto|rewrite mod_neq; auto]. Qed.
Lemma norm_dir : forall h d t, norm h d = t -> t = T_CPP_IF \/ t = T_CPP_ELSE \/ t = T_CPP_ENDIF -> isdird h d = true.
Proof. intros h d t <- H. apply norm_isdir. auto. Qed.

(** Links within a conditional. *)
Lemma seg_split : forall h a d b, seg h None (a ++ d :: b) None -> n_pv (h d) = hd_or (rev a) None /\ n_nx (h d) = hd_or b None.
Proof. intros h a d b S. apply seg_app in S. destruct S as (_ & S). cbn in S. tauto. Qed.
Lemma chain_next : forall h toks cs d, chained h toks cs -> In d (concat cs) -> norm h d = T_CPP_IF \/ norm h d = T_CPP_ELSE ->
  exists e, n_nx (h d) = Some e /\ In e (concat cs) /\ n_pv (h e) = Some d /\ (norm h e = T_CPP_ELSE \/ norm h e = T_CPP_ENDIF).
Proof.
  intros h toks cs d C Hd Hn. apply in_concat in Hd. destruct Hd as (c & Hc & Hd). destruct (ch_each _ _ _ C c Hc) as ((i & m & e & Ec & Ti & Tm & Te) & Sg).
  apply in_split in Hd. destruct Hd as (a & b & Ed). rewrite Ed in Sg. destruct (seg_split _ _ _ _ Sg) as (_ & Nx). destruct b as [|f b].
  - exfalso. rewrite Ec in Ed. change (i :: m ++ [e]) with ((i :: m) ++ [e]) in Ed. apply app_inj_tail in Ed. destruct Ed as (_ & <-). destruct Hn; congruence.
  - exists f. cbn in Nx. split; auto. split; [apply in_concat; exists c; split; auto; rewrite Ed; apply in_or_app; right; right; left; auto|].
    split.
    + change (a ++ d :: f :: b) with (a ++ [d] ++ f :: b) in Sg. rewrite app_assoc in Sg. destruct (seg_split _ _ _ _ Sg) as (Pv & _). rewrite rev_app_distr in Pv. auto.
    + rewrite Ec in Ed. destruct a as [|i' a]; cbn in Ed; injection Ed as -> Ed.
      * destruct m as [|k m]; cbn in Ed; injection Ed as -> _; auto. inv Tm; auto.
      * assert (Hf : In f (m ++ [e])) by (rewrite Ed; apply in_or_app; right; right; left; auto). apply in_app_or in Hf. destruct Hf as [Hf|[->|[]]]; auto. rewrite Forall_forall in Tm. auto.
Qed.
Lemma chain_prev : forall h toks cs d, chained h toks cs -> In d (concat cs) -> norm h d = T_CPP_ELSE \/ norm h d = T_CPP_ENDIF ->
  exists p, n_pv (h d) = Some p /\ In p (concat cs) /\ n_nx (h p) = Some d /\ (norm h p = T_CPP_IF \/ norm h p = T_CPP_ELSE).
Proof.
  intros h toks cs d C Hd Hn. apply in_concat in Hd. destruct Hd as (c & Hc & Hd). destruct (ch_each _ _ _ C c Hc) as ((i & m & e & Ec & Ti & Tm & Te) & Sg).
  apply in_split in Hd. destruct Hd as (a & b & Ed). destruct a as [|p a _] using rev_ind.
  - exfalso. rewrite Ec in Ed. cbn in Ed. injection Ed as -> _. destruct Hn; congruence.
  - rewrite Ed in Sg. destruct (seg_split _ _ _ _ Sg) as (Pv & _). rewrite rev_app_distr in Pv. cbn in Pv. exists p. split; auto.
    split; [apply in_concat; exists c; split; auto; rewrite Ed; apply in_or_app; left; apply in_or_app; right; left; auto|].
    split.
    + rewrite <- app_assoc in Sg. cbn in Sg. destruct (seg_split _ _ _ _ Sg) as (_ & Nx). auto.
    + rewrite Ec in Ed. destruct a as [|i' a]; cbn in Ed; injection Ed as -> Ed; auto.
      destruct b as [|k b _] using rev_ind.
      * change (d :: []) with ([d]) in Ed. apply app_inj_tail in Ed. destruct Ed as (-> & _). right. rewrite Forall_forall in Tm. apply Tm. apply in_or_app; right; left; auto.
      * change (d :: b ++ [k]) with ((d :: b) ++ [k]) in Ed. rewrite app_assoc in Ed. apply app_inj_tail in Ed. destruct Ed as (-> & _). right. rewrite Forall_forall in Tm. apply Tm.
        apply in_or_app; left. apply in_or_app; right; left; auto.
Qed.

Lemma unlink_softs : forall h toks cs d g, chained h toks cs -> (exists t, In t toks /\ In d (n_pre (h t))) -> branch_unlink d h = Some g -> softs h g.
Proof.
  intros h toks cs d g C Hp E. unfold branch_unlink in E.
  destruct (isdird h d) eqn:Hd.
  2:{ unfold isdird, isdir in Hd. unfold norm in E. destruct (type_normalize (n_type (h d))); try discriminate; injection E as <-; apply softs_refl. }
  assert (Hin : In d (concat cs)) by (apply (ch_dirs _ _ _ C); auto). apply norm_isdir in Hd. destruct Hd as [Hd|[Hd|Hd]]; rewrite Hd in E.
  - destruct (n_pv (h d)); [discriminate|]. destruct (chain_next _ _ _ _ C Hin (or_introl Hd)) as (nx & Nx & Inx & Pnx & Tnx). rewrite Nx in E.
    assert (Dnx : isdird h nx = true) by (apply norm_isdir; tauto). assert (Ddh : isdird h d = true) by (apply norm_isdir; auto).
    destruct Tnx as [Tnx|Tnx]; rewrite Tnx in E.
    + destruct (update_parent_flags nx _) as [h2|] eqn:E2; [|discriminate]. apply parent_flags_softs in E2. destruct E2 as (S2 & T2).
      assert (S1 : softs h (modify h nx (fun n => set_type T_CPP_IF (set_pv None n)))) by (apply mod_softs; cbn; auto; intros e K; constructor; auto).
      destruct (exhaust_softs d h2 g) as (S3 & _); auto.
      * unfold isdird. destruct (T2 d) as (-> & _). destruct (Nat.eq_dec d nx) as [->|N]; [rewrite mod_eq; auto|rewrite mod_neq by auto; auto].
      * eapply softs_trans; [exact S1|]. eapply softs_trans; eauto.
    + destruct (branch_exhaust nx h) as [h2|] eqn:E2; [|discriminate]. destruct (exhaust_softs _ _ _ Dnx E2) as (S2 & T2).
      destruct (exhaust_softs d h2 g) as (S3 & _); auto.
      * unfold isdird. destruct (T2 d) as (-> & _); auto. intros ->. congruence.
      * eapply softs_trans; eauto.
  - destruct (chain_prev _ _ _ _ C Hin (or_introl Hd)) as (pv & Pv & Ipv & Npv & Tpv). destruct (chain_next _ _ _ _ C Hin (or_intror Hd)) as (nx & Nx & Inx & Pnx & Tnx).
    rewrite Pv, Nx in E. set (h1 := modify h pv _) in E. set (h2 := modify h1 nx _) in E.
    destruct (update_parent_flags pv h2) as [h3|] eqn:E3; [|discriminate]. destruct (update_parent_flags nx h3) as [h4|] eqn:E4; [|discriminate].
    apply parent_flags_softs in E3, E4. destruct E3 as (S3 & T3), E4 as (S4 & T4).
    assert (S1 : softs h h1).
    { apply mod_softs; cbn; auto. intros e K. injection K as <-. eapply path_more; [exact Npv|]. constructor; auto. }
    assert (S2 : softs h1 h2).
    { apply mod_softs; cbn; auto. intros e K. constructor; auto. }
    destruct (exhaust_softs d h4 g) as (S5 & _); auto.
    + unfold isdird. destruct (T4 d) as (-> & _), (T3 d) as (-> & _). unfold h2. rewrite mod_type by auto. unfold h1. rewrite mod_type by auto.
      assert (K : isdird h d = true) by (apply norm_isdir; auto). exact K.
    + eapply softs_trans; [exact S1|]. eapply softs_trans; [exact S2|]. eapply softs_trans; [exact S3|]. eapply softs_trans; eauto.
  - destruct (chain_prev _ _ _ _ C Hin (or_intror Hd)) as (pv & Pv & Ipv & Npv & Tpv). rewrite Pv in E. destruct (n_nx (h d)); [discriminate|].
    assert (Dpv : isdird h pv = true) by (apply norm_isdir; tauto). assert (Ddh : isdird h d = true) by (apply norm_isdir; auto).
    destruct Tpv as [Tpv|Tpv]; rewrite Tpv in E.
    + destruct (branch_exhaust pv h) as [h2|] eqn:E2; [|discriminate]. destruct (exhaust_softs _ _ _ Dpv E2) as (S2 & T2).
      destruct (exhaust_softs d h2 g) as (S3 & _); auto.
      * unfold isdird. destruct (T2 d) as (-> & _); auto. intros ->. congruence.
      * eapply softs_trans; eauto.
    + destruct (update_parent_flags pv _) as [h2|] eqn:E2; [|discriminate]. apply parent_flags_softs in E2. destruct E2 as (S2 & T2).
      assert (S1 : softs h (modify h pv (fun n => set_type T_CPP_ENDIF (set_nx None n)))) by (apply mod_softs; cbn; auto; discriminate).
      destruct (exhaust_softs d h2 g) as (S3 & _); auto.
      * unfold isdird. destruct (T2 d) as (-> & _). destruct (Nat.eq_dec d pv) as [->|N]; [rewrite mod_eq; auto|rewrite mod_neq by auto; auto].
      * eapply softs_trans; [exact S1|]. eapply softs_trans; eauto.
Qed.

(** ** Prefixes *)
Lemma toks_not : forall x s cs tk p, life x s cs -> In tk (x_toks x) -> In p (n_pre (x_heap x tk) ++ n_suf (x_heap x tk)) -> ~ In p (x_toks x).
Proof.
  intros x s cs tk p L Ht Hp K. destruct (whole_disj _ _ tk (wl_nodup _ _ (li_wfl _ _ _ L)) Ht) as (_ & _ & Z & _). destruct (Z p K). apply in_app_or in Hp. tauto.
Qed.
Lemma unlink_full : forall x s cs d t, life x s cs -> In t (x_toks x) -> In d (n_pre (x_heap x t)) ->
  exists g cs', branch_unlink d (x_heap x) = Some g /\ life (set_heap g x) s cs' /\ isdird g d = false /\ softs (x_heap x) g /\ frameb (x_heap x) g /\
    (forall k, ~ In k (x_toks x) -> n_refs (g k) = n_refs (x_heap x k)).
Proof.
  intros x s cs d t L Ht Hd. destruct (unlink_life x s cs d t L Ht Hd) as (g & cs' & E & L' & D). exists g, cs'. split; auto. split; auto. split; auto.
  split; [eapply (unlink_softs _ _ _ _ _ (li_chain _ _ _ L)); eauto|].
  destruct L as [W C _ _ _]. rewrite <- (set_heap_id x) in W. destruct (unlink_spec _ x (x_heap x) cs d W C) as (g' & ? & E' & _ & _ & F' & _ & _ & R'); [exists t; auto|]. assert (g' = g) by congruence. subst g'. auto.
Qed.

Lemma drop_full : forall x s cs tk p, life x s cs -> In tk (x_toks x) -> In p (n_pre (x_heap x tk)) ->
  exists h1 g cs', branch_unlink p (x_heap x) = Some h1 /\ drop_prefix tk p h1 = Some g /\ life (set_heap g x) s cs' /\ softs (x_heap x) g /\
    n_pre (g tk) = del p (n_pre (x_heap x tk)) /\ n_suf (g tk) = n_suf (x_heap x tk) /\
    (forall t, In t (x_toks x) -> t <> tk -> n_pre (g t) = n_pre (x_heap x t) /\ n_suf (g t) = n_suf (x_heap x t)) /\
    (forall i, ~ In i (x_toks x) -> i <> p -> n_refs (g i) = n_refs (x_heap x i) /\ n_pre (g i) = n_pre (x_heap x i) /\ n_suf (g i) = n_suf (x_heap x i)).
Proof.
  intros x s cs tk p L Ht Hp. assert (Np : ~ In p (x_toks x)) by (eapply toks_not; eauto; apply in_or_app; auto). assert (Npt : p <> tk) by (intros ->; auto).
  destruct (unlink_full x s cs p tk L Ht Hp) as (h1 & cs1 & E1 & L1 & D1 & S1 & F1 & R1). exists h1. unfold drop_prefix. set (h2 := modify h1 tk _).
  destruct (drop_life (set_heap h1 x) s cs1 tk p h2 L1) as (g & E3 & L3 & G3 & _); cbn [x_heap set_heap x_toks] in *; auto.
  { intros i Hi. unfold h2. rewrite mod_neq; auto. }
  { left. destruct (F1 tk) as (Q & _). rewrite Q. split; auto. unfold h2. rewrite mod_eq. rewrite Q. auto. }
  exists g, cs1. split; auto. split; auto. split; auto.
  assert (S2 : softs h1 h2). { apply mod_softs; cbn; auto. intros e K. constructor; auto. }
  split; [eapply softs_trans; [exact S1|]; eapply softs_trans; [exact S2|]; apply still_softs; eapply rele_still; exact E3|].
  rewrite G3 by auto. unfold h2 at 1 2. rewrite mod_eq. cbn [n_pre n_suf set_pre]. destruct (F1 tk) as (-> & -> & _). split; auto. split; auto. split.
  - intros t T1 T2. rewrite G3 by (intros ->; auto). unfold h2. rewrite mod_neq by auto. destruct (F1 t) as (-> & -> & _). auto.
  - intros i Hn Hi. rewrite G3 by auto. unfold h2. rewrite mod_neq by (intros ->; auto). destruct (F1 i) as (-> & -> & _). auto.
Qed.

(** What happens to the prefixes and suffixes of all tokens but [tk]. *)
Definition others (tk : id) (x : lex) (g : heap) : Prop :=
  forall t, In t (x_toks x) -> t <> tk -> n_pre (g t) = n_pre (x_heap x t) /\ n_suf (g t) = n_suf (x_heap x t).
Lemma drop_through_full : forall q1 x s cs tk last q2 fuel, life x s cs -> In tk (x_toks x) -> n_pre (x_heap x tk) = q1 ++ last :: q2 -> length q1 < fuel ->
  exists g cs', drop_through fuel tk last (x_heap x) = Some g /\ life (set_heap g x) s cs' /\ softs (x_heap x) g /\
    n_pre (g tk) = q2 /\ n_suf (g tk) = n_suf (x_heap x tk) /\ others tk x g /\
    (forall i, ~ In i (x_toks x) -> ~ In i (n_pre (x_heap x tk)) -> n_refs (g i) = n_refs (x_heap x i) /\ n_pre (g i) = n_pre (x_heap x i) /\ n_suf (g i) = n_suf (x_heap x i)).
Proof.
  induction q1 as [|p q1 IH]; intros x s cs tk last q2 fuel L Ht Eq Hf; (destruct fuel as [|fuel]; [cbn in Hf; lia|]); cbn [drop_through]; rewrite Eq; cbn [app].
  - destruct (drop_full x s cs tk last L Ht) as (h1 & g & cs' & E1 & E2 & L2 & S2 & P2 & Q2 & O2 & X2); [rewrite Eq; left; auto|].
    exists g, cs'. rewrite E1, E2, Nat.eqb_refl. split; auto. split; auto. split; auto. rewrite Eq in P2. cbn [app del] in P2. rewrite Nat.eqb_refl in P2. split; auto. split; auto. split; auto.
    intros i A B. apply X2; auto. intros ->. apply B. left; auto.
  - destruct (drop_full x s cs tk p L Ht) as (h1 & g & cs' & E1 & E2 & L2 & S2 & P2 & Q2 & O2 & X2); [rewrite Eq; left; auto|]. rewrite E1, E2.
    assert (p <> last).
    { intros ->. destruct (whole_disj _ _ tk (wl_nodup _ _ (li_wfl _ _ _ L)) Ht) as (N & _). rewrite Eq in N. cbn in N. apply NoDup_cons_iff in N. apply (proj1 N). apply in_or_app; right; left; auto. }
    destruct (Nat.eqb_spec p last); [contradiction|].
    rewrite Eq in P2. cbn [app del] in P2. rewrite Nat.eqb_refl in P2.
    destruct (IH (set_heap g x) s cs' tk last q2 fuel L2 Ht P2) as (g' & cs2 & E3 & L3 & S3 & P3 & Q3 & O3 & X3); [cbn in Hf; lia|]. cbn [x_heap set_heap] in *.
    exists g', cs2. split; auto. split; auto. split; [eapply softs_trans; eauto|]. split; auto. split; [congruence|]. split; [intros t T1 T2; destruct (O3 t T1 T2) as (-> & ->); auto|].
    intros i A B. destruct (X3 i) as (-> & -> & ->); auto; [rewrite P2; intros K; apply B; right; auto|]. apply X2; auto. intros ->. apply B. left; auto.
Qed.

Lemma remove_prefixes_full : forall l x s cs tk, life x s cs -> In tk (x_toks x) -> n_pre (x_heap x tk) = l ->
  exists g cs', remove_prefixes l tk (x_heap x) = Some g /\ life (set_heap g x) s cs' /\ softs (x_heap x) g /\ n_pre (g tk) = [] /\ n_suf (g tk) = n_suf (x_heap x tk) /\ others tk x g.
Proof.
  induction l as [|p l IH]; intros x s cs tk L Ht El.
  - exists (x_heap x), cs. rewrite set_heap_id. cbn. split; auto. split; auto. split; [apply softs_refl|]. split; auto. split; auto. intros t _ _. auto.
  - cbn [remove_prefixes]. destruct (drop_full x s cs tk p L Ht) as (h1 & g & cs' & E1 & E2 & L2 & S2 & P2 & Q2 & O2 & _); [rewrite El; left; auto|]. rewrite E1, E2.
    rewrite El in P2. cbn [app del] in P2. rewrite Nat.eqb_refl in P2.
    destruct (IH (set_heap g x) s cs' tk L2 Ht P2) as (g' & cs2 & E3 & L3 & S3 & P3 & Q3 & O3). cbn [x_heap set_heap] in *.
    exists g', cs2. split; auto. split; auto. split; [eapply softs_trans; eauto|]. split; auto. split; [congruence|].
    intros t T1 T2. destruct (O3 t T1 T2) as (-> & ->). auto.
Qed.
Lemma remove_suffixes_full : forall l x s cs tk, life x s cs -> In tk (x_toks x) -> n_suf (x_heap x tk) = l ->
  exists g, remove_suffixes l tk (x_heap x) = Some g /\ life (set_heap g x) s cs /\ softs (x_heap x) g /\ n_pre (g tk) = n_pre (x_heap x tk) /\ n_suf (g tk) = [] /\ others tk x g.
Proof.
  induction l as [|p l IH]; intros x s cs tk L Ht El.
  - exists (x_heap x). rewrite set_heap_id. cbn. split; auto. split; auto. split; [apply softs_refl|]. split; auto. split; auto. intros t _ _. auto.
  - cbn [remove_suffixes]. assert (Hp : In p (n_suf (x_heap x tk))) by (rewrite El; left; auto). unfold drop_suffix. set (h2 := modify (x_heap x) tk _).
    assert (Np : ~ In p (x_toks x)) by (eapply toks_not; eauto; apply in_or_app; auto). assert (Npt : p <> tk) by (intros ->; auto).
    destruct (drop_life x s cs tk p h2 L Ht) as (h3 & E3 & L3 & G3 & G4 & _).
    { apply (li_suf _ _ _ L tk); auto. } { intros i Hi. unfold h2. rewrite mod_neq; auto. } { right. split; auto. unfold h2. rewrite mod_eq. auto. }
    rewrite E3.
    assert (T3 : h3 tk = set_suf (del p (n_suf (x_heap x tk))) (x_heap x tk)) by (rewrite G3 by auto; unfold h2; rewrite mod_eq; auto).
    destruct (IH (set_heap h3 x) s cs tk L3 Ht) as (g & E4 & L4 & S4 & P4 & Q4 & O4); cbn [x_heap set_heap] in *.
    + rewrite T3. cbn [n_suf set_suf]. rewrite El. cbn [del]. rewrite Nat.eqb_refl. auto.
    + exists g. split; auto. split; auto. split.
      * eapply softs_trans; [|exact S4]. eapply softs_trans; [|apply still_softs; eapply rele_still; exact E3]. apply mod_softs; cbn; auto. intros e K. constructor; auto.
      * split; [rewrite P4, T3; auto|]. split; auto. intros t T1 T2. destruct (O4 t T1 T2) as (-> & ->). cbn [x_heap set_heap]. rewrite G3 by (intros ->; auto). unfold h2. rewrite mod_neq; auto.
Qed.

(** ** Tokens *)
(** Prefixes and suffixes of the tokens still listed. *)
Definition same_around (x y : lex) (l : list id) : Prop := forall t, In t l -> n_pre (x_heap y t) = n_pre (x_heap x t) /\ n_suf (x_heap y t) = n_suf (x_heap x t).
Lemma remove_token_full : forall x s cs a tk nx b, life x s cs -> x_toks x = a ++ tk :: nx :: b ->
  exists y cs', remove_token tk x = Some y /\ life y s cs' /\ x_toks y = a ++ nx :: b /\ softs (x_heap x) (x_heap y) /\ same_around x y (a ++ nx :: b) /\
    x_cur y = (if ideqb (x_cur x) (Some tk) then hd_error (rev a) else x_cur x) /\ x_next y = x_next x.
Proof.
  intros x s cs a tk nx b L Et. assert (Ht : In tk (x_toks x)) by (rewrite Et; apply in_or_app; right; left; auto). unfold remove_token.
  destruct (remove_prefixes_full _ x s cs tk L Ht eq_refl) as (h1 & cs1 & -> & L1 & S1 & P1 & Q1 & O1).
  destruct (remove_suffixes_full _ (set_heap h1 x) s cs1 tk L1 Ht eq_refl) as (h2 & E2 & L2 & S2 & P2 & Q2 & O2). cbn [x_heap set_heap x_toks] in *.
  rewrite E2. change (set_heap h2 (set_heap h1 x)) with (set_heap h2 x) in L2. rewrite P1 in P2.
  destruct (remove_life (set_heap h2 x) s cs1 a tk nx b L2 Et) as (y & E3 & L3). exists y, cs1. split; auto. split; auto.
  destruct (remove_spec _ a tk nx b _ (li_wfl _ _ _ L2) Et) as (y' & E4 & R & _). assert (y' = y) by congruence. subst y'. cbn [x_heap set_heap x_toks] in *.
  assert (Nt := whole_toks _ _ (wl_nodup _ _ (li_wfl _ _ _ L))). rewrite Et in Nt. destruct (nodup_split _ _ _ Nt) as (N1 & N2).
  split; [apply (rm_toks _ _ _ _ _ _ _ R)|]. split; [|split].
  - eapply softs_trans; [exact S1|]. eapply softs_trans; [exact S2|]. intros i. destruct (rm_text _ _ _ _ _ _ _ R i) as (A1 & A2 & A3 & A4 & A5), (rm_links _ _ _ _ _ _ _ R i) as (A6 & A7). cbn [x_heap set_heap] in *.
    constructor; auto; try congruence. { unfold isdird. rewrite A1. auto. } { intros e E. constructor. congruence. }
  - intros t T. assert (Tt : t <> tk) by (intros ->; apply in_app_or in T; tauto).
    assert (Tx : In t (x_toks x)) by (rewrite Et; apply in_app_or in T; apply in_or_app; destruct T; auto; right; right; auto).
    destruct (O1 t Tx Tt) as (B1 & B2), (O2 t Tx Tt) as (C1 & C2). cbn [x_heap set_heap] in *. rewrite <- B1, <- B2, <- C1, <- C2. split.
    + destruct (Nat.eq_dec t nx) as [->|K]; [|apply (rm_pre _ _ _ _ _ _ _ R); auto]. rewrite (rm_pre_nx _ _ _ _ _ _ _ R). cbn [x_heap set_heap]. rewrite P2. auto.
    + destruct (Nat.eq_dec t (match rev a with [] => nx | pv :: _ => pv end)) as [K|K]; [|apply (rm_suf _ _ _ _ _ _ _ R); auto].
      rewrite K at 1. rewrite (rm_suf_pv _ _ _ _ _ _ _ R). cbn [x_heap set_heap]. rewrite Q2, app_nil_r, <- K. auto.
  - split; [|destruct (rm_rest _ _ _ _ _ _ _ R) as (Z & _); exact Z]. rewrite (rm_cur _ _ _ _ _ _ _ R). cbn [x_cur set_heap]. unfold ideqb. destruct (x_cur x); auto.
Qed.

(** ** Moving one prefix from anywhere in a list *)
Record moved1 (p src dst : id) (h g : heap) : Prop := {
  m1_stable : stable h g;
  m1_src : n_pre (g src) = del p (n_pre (h src));
  m1_dst : n_pre (g dst) = p :: n_pre (h dst);
  m1_pre : forall i, i <> src -> i <> dst -> n_pre (g i) = n_pre (h i);
  m1_parent : forall i, n_parent (g i) = if (i =? p) && isdird h i then Some dst else n_parent (h i);
  m1_refs_src : n_refs (g src) + (if isdird h p then 1 else 0) = n_refs (h src);
  m1_refs_dst : n_refs (g dst) = n_refs (h dst) + (if isdird h p then 1 else 0);
  m1_refs : forall i, i <> src -> i <> dst -> n_refs (g i) = n_refs (h i);
  m1_other : forall i, same_flags_but_branch h g i }.
Lemma move_mid_spec : forall p src dst h, src <> dst -> p <> src -> p <> dst ->
  (isdird h p = true -> n_parent (h p) = Some src /\ n_refs (h src) >= 2) ->
  exists g, move_prefix p src dst h = Some g /\ moved1 p src dst h g.
Proof.
  intros p src dst h Hsd Hps Hpd Hdir. unfold move_prefix. set (l := del p (n_pre (h src))).
  set (h1 := modify h src (fun n => set_pre (del p (n_pre n)) n)).
  set (h2 := modify h1 dst (fun n => set_pre (p :: n_pre n) n)).
  assert (S2 : h2 src = set_pre l (h src)).
  { unfold h2, h1. rewrite mod_neq, mod_eq by auto. auto. }
  assert (D2 : h2 dst = set_pre (p :: n_pre (h dst)) (h dst)).
  { unfold h2, h1. rewrite mod_eq, mod_neq by auto. auto. }
  assert (O2 : forall i, i <> src -> i <> dst -> h2 i = h i).
  { intros i A B. unfold h2, h1. rewrite !mod_neq; auto. }
  assert (P2 : h2 p = h p) by auto.
  rewrite P2. change (isdir (n_type (h p))) with (isdird h p).
  destruct (isdird h p) eqn:Ed.
  - destruct (Hdir eq_refl) as (Hp & Hr). unfold branch_parent. rewrite P2, Hp.
    rewrite rele_many by (rewrite S2; auto).
    set (h3 := modify h2 src (set_refs (n_refs (h2 src) - 1))).
    set (h4 := token_ref dst h3).
    set (h5 := modify h4 p (set_parent (Some dst))).
    assert (S5 : h5 src = set_refs (n_refs (h src) - 1) (set_pre l (h src))).
    { unfold h5, h4, h3, token_ref. rewrite !mod_neq, mod_eq by auto. rewrite S2. auto. }
    assert (D5 : h5 dst = set_refs (S (n_refs (h dst))) (set_pre (p :: n_pre (h dst)) (h dst))).
    { unfold h5, h4, h3, token_ref. rewrite mod_neq, mod_eq, mod_neq by auto. rewrite D2. auto. }
    assert (P5 : h5 p = set_parent (Some dst) (h p)).
    { unfold h5, h4, h3, token_ref. rewrite mod_eq, !mod_neq by auto. rewrite P2. auto. }
    assert (O5 : forall i, i <> src -> i <> dst -> i <> p -> h5 i = h i).
    { intros i A B C. unfold h5, h4, h3, token_ref. rewrite !mod_neq by auto. auto. }
    clearbody h5. clear h3 h4.
    pose proof (update_flags_spec dst h5) as F1. set (h6 := update_flags dst h5) in *.
    pose proof (update_flags_spec src h6) as F2. set (g := update_flags src h6) in *. clearbody g h6.
    assert (Gs : g src = set_flags (n_flags (g src)) (set_refs (n_refs (h src) - 1) (set_pre l (h src)))).
    { rewrite (fu_self _ _ _ F2) at 1. rewrite (fu_other _ _ _ F1) by auto. rewrite S5. auto. }
    assert (Gd : g dst = set_flags (n_flags (g dst)) (set_refs (S (n_refs (h dst))) (set_pre (p :: n_pre (h dst)) (h dst)))).
    { rewrite (fu_other _ _ _ F2) at 1 2 by auto. rewrite (fu_self _ _ _ F1) at 1. rewrite D5. auto. }
    assert (Gp : g p = set_parent (Some dst) (h p)).
    { rewrite (fu_other _ _ _ F2), (fu_other _ _ _ F1) by auto. auto. }
    assert (Go : forall i, i <> src -> i <> dst -> i <> p -> g i = h i).
    { intros i A B C. rewrite (fu_other _ _ _ F2), (fu_other _ _ _ F1) by auto. auto. }
    exists g. split; auto. constructor.
    + intros i. destruct (Nat.eq_dec i src) as [->|A]; [rewrite Gs; cbn; auto 10|].
      destruct (Nat.eq_dec i dst) as [->|B]; [rewrite Gd; cbn; auto 10|].
      destruct (Nat.eq_dec i p) as [->|C]; [rewrite Gp; cbn; auto 10|]. rewrite Go; auto 10.
    + rewrite Gs. cbn. auto.
    + rewrite Gd. cbn. auto.
    + intros i A B. destruct (Nat.eq_dec i p) as [->|C]; [rewrite Gp; auto|rewrite Go; auto].
    + intros i. destruct (Nat.eqb_spec i p) as [->|C]; cbn [andb]; [rewrite Ed, Gp; auto|].
      destruct (Nat.eq_dec i src) as [->|A]; [rewrite Gs; cbn; auto|].
      destruct (Nat.eq_dec i dst) as [->|B]; [rewrite Gd; cbn; auto|]. rewrite Go; auto.
    + rewrite Ed, Gs. cbn. lia.
    + rewrite Ed, Gd. cbn. lia.
    + intros i A B. destruct (Nat.eq_dec i p) as [->|C]; [rewrite Gp; auto|rewrite Go; auto].
    + intros i. unfold same_flags_but_branch. destruct (Nat.eq_dec i src) as [->|A].
      { rewrite (fu_rest _ _ _ F2). rewrite (fu_other _ _ _ F1) by auto. rewrite S5. auto. }
      destruct (Nat.eq_dec i dst) as [->|B].
      { rewrite (fu_other _ _ _ F2) by auto. rewrite (fu_rest _ _ _ F1). rewrite D5. auto. }
      destruct (Nat.eq_dec i p) as [->|C]; [rewrite Gp; auto|rewrite Go; auto].
  - exists h2. split; auto. constructor.
    + intros i. destruct (Nat.eq_dec i src) as [->|A]; [rewrite S2; cbn; auto 10|].
      destruct (Nat.eq_dec i dst) as [->|B]; [rewrite D2; cbn; auto 10|]. rewrite O2; auto 10.
    + rewrite S2. auto.
    + rewrite D2. auto.
    + intros i A B. rewrite O2; auto.
    + intros i. destruct (Nat.eqb_spec i p) as [->|C]; cbn [andb]; [rewrite Ed, P2; auto|].
      destruct (Nat.eq_dec i src) as [->|A]; [rewrite S2; auto|].
      destruct (Nat.eq_dec i dst) as [->|B]; [rewrite D2; auto|]. rewrite O2; auto.
    + rewrite Ed, S2. cbn. lia.
    + rewrite Ed, D2. cbn. lia.
    + intros i A B. rewrite O2; auto.
    + intros i. unfold same_flags_but_branch. destruct (Nat.eq_dec i src) as [->|A]; [rewrite S2; auto|].
      destruct (Nat.eq_dec i dst) as [->|B]; [rewrite D2; auto|]. rewrite O2; auto.
Qed.

Lemma whole_in_inv : forall h l i, In i (whole h l) -> In i l \/ exists t, In t l /\ In i (n_pre (h t) ++ n_suf (h t)).
Proof.
  intros h l i H. apply in_flat_map in H. destruct H as (t & T & K). apply in_app_or in K. destruct K as [K|[<-|K]]; auto; right; exists t; split; auto; apply in_or_app; auto.
Qed.
Lemma whole_perm : forall h g l, (forall t, In t l -> Permutation (n_pre (h t)) (n_pre (g t)) /\ n_suf (g t) = n_suf (h t)) -> Permutation (whole h l) (whole g l).
Proof.
  intros h g l H. induction l as [|t l IH]; auto. rewrite !whole_cons. destruct (H t (or_introl eq_refl)) as (A & ->). rewrite A, IH; auto. intros u U. apply H. right; auto.
Qed.
Lemma nodup_mid : forall (l : list id) a b, In a l -> In b l -> a <> b -> (exists p q r, l = p ++ a :: q ++ b :: r) \/ (exists p q r, l = p ++ b :: q ++ a :: r).
Proof.
  intros l a b Ha Hb N. apply in_split in Ha. destruct Ha as (p & r & ->). apply in_app_or in Hb. destruct Hb as [Hb|[Hb|Hb]]; [|congruence|].
  - right. apply in_split in Hb. destruct Hb as (p1 & q & ->). exists p1, q, r. rewrite <- app_assoc. auto.
  - left. apply in_split in Hb. destruct Hb as (q & r1 & ->). eauto.
Qed.
Lemma whole_move : forall h g l src dst p, NoDup l -> In src l -> In dst l -> src <> dst -> In p (n_pre (h src)) -> NoDup (n_pre (h src)) ->
  n_pre (g src) = del p (n_pre (h src)) -> n_pre (g dst) = p :: n_pre (h dst) -> (forall t, t <> src -> t <> dst -> n_pre (g t) = n_pre (h t)) -> (forall t, n_suf (g t) = n_suf (h t)) ->
  Permutation (whole h l) (whole g l).
Proof.
  intros h g l src dst p Nl Hs Hd Nsd Hp Np Es Ed Eo Ef.
  assert (X : forall m, ~ In src m -> ~ In dst m -> whole g m = whole h m).
  { intros m M1 M2. apply whole_ext. intros t T. rewrite Ef. split; auto. apply Eo; intros ->; auto. }
  pose proof (del_perm p _ Np Hp) as Pd.
  destruct (nodup_mid l src dst Hs Hd Nsd) as [(a & b & c & ->)|(a & b & c & ->)]; rewrite !whole_app, !whole_cons, !whole_app, !whole_cons;
    (destruct (nodup_split _ _ _ Nl) as (N1 & N2); apply NoDup_remove_1 in Nl; rewrite app_assoc in Nl; destruct (nodup_split _ _ _ Nl) as (N3 & N4);
     rewrite !X by (intros K; first [apply N1; tauto|apply N2; apply in_or_app; tauto|apply N2; apply in_or_app; right; right; tauto|apply N3; apply in_or_app; tauto|apply N4; tauto]);
     rewrite Es, Ed, !Ef; apply (Permutation_trans (l' := whole h a ++ whole h b ++ whole h c ++ src :: dst :: n_suf (h src) ++ n_suf (h dst) ++ n_pre (h dst) ++ n_pre (h src))); [permc|]; etransitivity; [do 3 apply Permutation_app_head; do 2 apply perm_skip; do 3 apply Permutation_app_head; exact Pd|permc]).
Qed.

Lemma move_life : forall x s cs p src dst, life x s cs -> In src (x_toks x) -> In dst (x_toks x) -> src <> dst -> In p (n_pre (x_heap x src)) ->
  exists g, move_prefix p src dst (x_heap x) = Some g /\ life (set_heap g x) s cs /\ softs (x_heap x) g /\ moved1 p src dst (x_heap x) g.
Proof.
  intros x s cs p src dst L Hs Hd Nsd Hp. assert (Np : ~ In p (x_toks x)) by (apply (toks_not x s cs src p); auto; apply in_or_app; auto). set (h := x_heap x) in *.
  assert (Nps : p <> src) by (intros ->; auto). assert (Npd : p <> dst) by (intros ->; auto).
  destruct L as [L1 L2 L3 L4 L5]. destruct L1 as [W1 W2 W3 W4]. fold h in W1, W2, W3, W4, L2, L3, L4, L5.
  destruct (whole_disj h (x_toks x) src W1 Hs) as (Ns & _).
  destruct (move_mid_spec p src dst h Nsd Nps Npd) as (g & E & M).
  { intros K. split; [apply W3; auto|]. rewrite W4 by auto. assert (ndirs h (n_pre (h src)) >= 1); [|lia]. unfold ndirs. destruct (filter (isdird h) (n_pre (h src))) as [|y l] eqn:Ef; [|cbn; lia].
    exfalso. assert (In p []); [|auto]. rewrite <- Ef. apply filter_In. auto. }
  exists g. split; auto. destruct M as [M1 M2 M3 M4 M5 M6 M7 M8 M9].
  assert (Ty : forall i, n_type (g i) = n_type (h i)) by (intros i; apply M1). assert (Isd : forall i, isdird g i = isdird h i) by (intros i; unfold isdird; rewrite Ty; auto).
  assert (Sf : forall i, n_suf (g i) = n_suf (h i)) by (intros i; apply M1).
  assert (Pm : Permutation (whole h (x_toks x)) (whole g (x_toks x))) by (apply (whole_move h g (x_toks x) src dst p); auto; eapply whole_toks; eauto).
  assert (Pre : forall t d, In t (x_toks x) -> In d (n_pre (g t)) -> (d = p /\ t = dst) \/ (d <> p /\ In d (n_pre (h t)))).
  { intros t d T K. destruct (Nat.eq_dec d p) as [->|Ndp].
    - left. split; auto. assert (Nw : NoDup (whole g (x_toks x))) by (eapply Permutation_NoDup; eauto).
      rewrite <- (owner_spec g (x_toks x) t p Nw T K). apply owner_spec; auto. rewrite M3. left; auto.
    - right. split; auto. destruct (Nat.eq_dec t src) as [->|A]; [rewrite M2 in K; apply del_in in K; tauto|]. destruct (Nat.eq_dec t dst) as [->|B]; [rewrite M3 in K; destruct K; [congruence|auto]|].
      rewrite M4 in K; auto. }
  assert (Pre2 : forall t d, In t (x_toks x) -> In d (n_pre (h t)) -> exists u, In u (x_toks x) /\ In d (n_pre (g u))).
  { intros t d T K. destruct (Nat.eq_dec d p) as [->|Ndp]; [exists dst; rewrite M3; split; auto; left; auto|]. exists t. split; auto.
    destruct (Nat.eq_dec t src) as [->|A]; [rewrite M2; apply del_in; auto|]. destruct (Nat.eq_dec t dst) as [->|B]; [rewrite M3; right; auto|]. rewrite M4; auto. }
  split; [constructor; cbn [x_heap set_heap x_toks]|split; [|constructor; auto]].
  - constructor; cbn [x_heap set_heap x_toks].
    + eapply Permutation_NoDup; eauto.
    + destruct W2 as (body & e & B1 & B2 & B3). exists body, e. unfold tyof in *. cbn [x_heap set_heap]. rewrite Ty. split; auto. split; auto. eapply Forall_impl; [|exact B3]. intros t K. cbn beta. rewrite Ty. auto.
    + intros t d T K D. rewrite Isd in D. rewrite M5, D. destruct (Pre t d T K) as [(-> & ->)|(A & B)]; [rewrite Nat.eqb_refl; auto|].
      destruct (Nat.eqb_spec d p); [contradiction|]. cbn. apply W3; auto.
    + intros t T. rewrite (ndirs_same h g) by auto. specialize (W4 t T). destruct (Nat.eq_dec t src) as [->|A].
      * rewrite M2. pose proof (filter_perm (isdird h) _ _ (del_perm p _ Ns Hp)) as Pf. apply Permutation_length in Pf. cbn [filter] in Pf. unfold ndirs in *. rewrite Pf in W4.
        destruct (isdird h p); cbn [length] in W4; lia.
      * destruct (Nat.eq_dec t dst) as [->|B]; [|rewrite M4, M8 by auto; exact W4]. rewrite M7, M3. unfold ndirs in *. cbn [filter]. destruct (isdird h p); cbn [length]; lia.
  - destruct L2 as [C1 C2 C3]. constructor; auto.
    + intros d. rewrite Isd, C2. split; intros ((t & T1 & T2) & T3); (split; auto).
      * eapply Pre2; eauto.
      * destruct (Pre t d T1 T2) as [(-> & ->)|(_ & K)]; eauto.
    + intros c Hc. destruct (C3 c Hc) as (S1 & S2). split; [eapply shaped_ext; [|exact S1]; auto|]. eapply seg_ext; [|exact S2]. intros d _. destruct (M1 d) as (_ & _ & _ & _ & _ & ? & ? & _). auto.
  - intros t q T K. assert (Q : exists u, In u (x_toks x) /\ In q (n_pre (h u) ++ n_suf (h u))).
    { apply in_app_or in K. destruct K as [K|K]; [|exists t; split; auto; rewrite Sf in K; apply in_or_app; auto]. destruct (Pre t q T K) as [(-> & ->)|(_ & J)]; [exists src|exists t]; split; auto; apply in_or_app; auto. }
    destruct Q as (u & U & Q). destruct (L3 u q U Q) as (R1 & R2 & R3). assert (Nq : ~ In q (x_toks x)).
    { intros J. destruct (whole_disj h (x_toks x) u W1 U) as (_ & _ & Z & _). destruct (Z q J). apply in_app_or in Q. tauto. }
    rewrite Sf, M8, M4 by (intros ->; auto). auto.
  - intros t T K. destruct (L4 t T K) as (D1 & D2 & D3 & D4). unfold dangling. cbn [x_toks set_heap]. fold h in D1, D2, D3, D4. rewrite Sf, M8, M4 by (intros ->; auto). split; auto.
    intros J. apply D1. eapply Permutation_in; [symmetry; exact Pm|auto].
  - intros t q T K. rewrite Isd. rewrite Sf in K. eauto.
  - intros i. destruct (M1 i) as (A1 & A2 & A3 & A4 & A5 & A6 & A7 & A8). pose proof (M9 i) as A9. unfold same_flags_but_branch in A9. pose proof (Isd i) as A10.
    constructor; auto; try congruence. intros e K. constructor. congruence.
Qed.
