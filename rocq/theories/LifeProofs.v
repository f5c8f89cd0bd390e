(** Lifetimes of tokens: chains of branches stay well formed until the end, and every token
    is left with the reference of the list of tokens. *)
From Coq Require Import Permutation.
From Verif Require Import Base TokenModel StreamModel StreamProofs TokListModel TokListProofs BranchModel BranchProofs.

Definition hd_or {A} (l : list A) (o : option A) : option A := match l with [] => o | e :: _ => Some e end.
(** [c] is doubly linked, [pv] is before it and [nx] after it. *)
Fixpoint seg (h : heap) (pv : option id) (c : list id) (nx : option id) : Prop :=
  match c with
  | [] => True
  | d :: r => n_pv (h d) = pv /\ n_nx (h d) = hd_or r nx /\ seg h (Some d) r nx
  end.
(** Types along a conditional: #if, #else ..., #endif. *)
Definition shaped (h : heap) (c : list id) : Prop :=
  exists i m e, c = i :: m ++ [e] /\ norm h i = T_CPP_IF /\ Forall (fun d => norm h d = T_CPP_ELSE) m /\ norm h e = T_CPP_ENDIF.

(** Every directive in front of a token belongs to exactly one complete conditional. *)
Record chained (h : heap) (toks : list id) (cs : list (list id)) : Prop := {
  ch_nodup : NoDup (concat cs);
  ch_dirs : forall d, In d (concat cs) <-> (exists t, In t toks /\ In d (n_pre (h t))) /\ isdird h d = true;
  ch_each : forall c, In c cs -> shaped h c /\ seg h None c None }.

Lemma seg_ext : forall h g c pv nx, (forall d, In d c -> n_pv (g d) = n_pv (h d) /\ n_nx (g d) = n_nx (h d)) -> seg h pv c nx -> seg g pv c nx.
Proof.
  induction c as [|d c IH]; intros pv nx H S; cbn; auto. destruct S as (S1 & S2 & S3). destruct (H d (or_introl eq_refl)) as (-> & ->).
  split; auto. split; auto. apply IH; auto. intros e He. apply H. right; auto.
Qed.
Lemma seg_app : forall h a b pv nx, seg h pv (a ++ b) nx <-> seg h pv a (hd_or b nx) /\ seg h (hd_or (rev a) pv) b nx.
Proof.
  induction a as [|d a IH]; intros b pv nx; cbn [app seg rev]; [cbn; tauto|]. rewrite IH.
  assert (E1 : hd_or (a ++ b) nx = hd_or a (hd_or b nx)) by (destruct a; auto).
  assert (E2 : hd_or (rev a ++ [d]) pv = hd_or (rev a) (Some d)) by (destruct (rev a); auto). rewrite E1, E2. tauto.
Qed.
Lemma shaped_ext : forall h g c, (forall d, In d c -> n_type (g d) = n_type (h d)) -> shaped h c -> shaped g c.
Proof.
  intros h g c H (i & m & e & -> & H1 & H2 & H3). exists i, m, e. split; auto. unfold norm in *. rewrite !H; auto; [|right; apply in_or_app; right; left; auto|left; auto].
  split; auto. split; auto. rewrite Forall_forall in *. intros d Hd. rewrite H; auto. right. apply in_or_app; auto.
Qed.
Lemma norm_isdir : forall h d, isdird h d = true <-> norm h d = T_CPP_IF \/ norm h d = T_CPP_ELSE \/ norm h d = T_CPP_ENDIF.
Proof.
  intros h d. unfold isdird, isdir, norm. destruct (type_normalize (n_type (h d))); split; intros H; auto; try discriminate; destruct H as [H|[H|H]]; try discriminate.
Qed.

Lemma surgery : forall h g toks A c B X c', chained h toks (A ++ c :: B) ->
  (forall i, n_pre (g i) = n_pre (h i)) -> (forall i, ~ In i c -> n_type (g i) = n_type (h i) /\ n_pv (g i) = n_pv (h i) /\ n_nx (g i) = n_nx (h i)) ->
  Permutation c (X ++ c') -> (forall d, In d X -> isdird g d = false) -> (forall d, In d c' -> isdird g d = true) ->
  (c' <> [] -> shaped g c' /\ seg g None c' None) ->
  chained g toks (A ++ match c' with [] => [] | _ => [c'] end ++ B).
Proof.
  intros h g toks A c B X c' [C1 C2 C3] Hp Ho Pm HX Hc' Hs.
  assert (P2 : Permutation (concat (A ++ c :: B)) (X ++ concat (A ++ match c' with [] => [] | _ => [c'] end ++ B))).
  { rewrite !concat_app. cbn [concat]. rewrite Pm. replace (concat (match c' with [] => [] | _ => [c'] end)) with c' by (destruct c'; cbn; rewrite ?app_nil_r; auto). permc. }
  assert (N2 : NoDup (X ++ concat (A ++ match c' with [] => [] | _ => [c'] end ++ B))) by (eapply Permutation_NoDup; eauto).
  assert (NC : forall d c0, In c0 (A ++ B) -> In d c0 -> ~ In d c).
  { intros d c0 Hc0 Hd Hdc. assert (P3 : Permutation (concat (A ++ c :: B)) (concat (A ++ B) ++ c)) by (rewrite !concat_app; cbn [concat]; permc).
    assert (N3 : NoDup (concat (A ++ B) ++ c)) by (eapply Permutation_NoDup; eauto).
    eapply (nodup_app_disj _ _ d N3); auto. apply in_concat. eauto. }
  constructor.
  - apply nodup_app_r in N2; auto.
  - intros d. set (cs' := A ++ _ ++ B) in *. assert (I2 : In d (concat (A ++ c :: B)) <-> In d X \/ In d (concat cs')).
    { split; intros H; [apply in_app_or; eapply Permutation_in; eauto|]. eapply Permutation_in; [symmetry; exact P2|]. apply in_or_app; auto. }
    assert (Ic : In d c <-> In d X \/ In d c').
    { split; intros H; [apply in_app_or; eapply Permutation_in; eauto|]. eapply Permutation_in; [symmetry; exact Pm|]. apply in_or_app; auto. }
    assert (Ex : (exists t, In t toks /\ In d (n_pre (g t))) <-> (exists t, In t toks /\ In d (n_pre (h t)))) by (split; intros (t & T1 & T2); exists t; [rewrite Hp in T2|rewrite Hp]; auto).
    rewrite Ex. split.
    + intros H. assert (H' : In d (concat (A ++ c :: B))) by (apply I2; auto). apply C2 in H'. destruct H' as (H1 & H2). split; auto.
      destruct (in_dec Nat.eq_dec d c) as [K|K].
      * apply Ic in K. destruct K as [K|K]; [exfalso; eapply (nodup_app_disj _ _ d N2); eauto|auto].
      * unfold isdird. destruct (Ho d K) as (-> & _). auto.
    + intros (H1 & H2). destruct (in_dec Nat.eq_dec d c) as [K|K].
      * assert (K2 := K). apply Ic in K2. destruct K2 as [K2|K2]; [rewrite HX in H2; auto; discriminate|].
        unfold cs'. rewrite !concat_app. apply in_or_app. right. apply in_or_app. left. destruct c'; [destruct K2|]. cbn [concat]. rewrite app_nil_r. auto.
      * assert (H3 : In d (concat (A ++ c :: B))). { apply C2. split; auto. unfold isdird in *. destruct (Ho d K) as (E & _). congruence. }
        apply I2 in H3. destruct H3; auto. exfalso. apply K. apply Ic. auto.
  - intros c0 Hc0. apply in_app_or in Hc0.
    assert (Case : In c0 (A ++ B) \/ (c0 = c' /\ c' <> [])).
    { destruct Hc0 as [H|H]; [left; apply in_or_app; auto|]. apply in_app_or in H. destruct H as [H|H]; [|left; apply in_or_app; auto].
      destruct c' as [|y c']; [destruct H|]. destruct H as [<-|[]]. right. split; auto. discriminate. }
    destruct Case as [H|(-> & H)]; auto.
    assert (H' : In c0 (A ++ c :: B)) by (apply in_app_or in H; apply in_or_app; destruct H; [auto|right; right; auto]).
    destruct (C3 c0 H') as (S1 & S2). split.
    + eapply shaped_ext; [|exact S1]. intros d Hd. apply Ho. eauto.
    + eapply seg_ext; [|exact S2]. intros d Hd. apply Ho. eauto.
Qed.

(** ** Reference counts through unlinking *)
Section Un.
Variable E : id -> nat.
Variable x : lex.
Notation W h := (wfl E (set_heap h x)).

Definition isp (h : heap) (d : id) : Prop := exists t, In t (x_toks x) /\ In d (n_pre (h t)).
Lemma isp_not_tok : forall h d, NoDup (whole h (x_toks x)) -> isp h d -> ~ In d (x_toks x).
Proof.
  intros h d Hn (t & Ht & Hd) Hin. destruct (whole_disj h (x_toks x) t Hn Ht) as (_ & _ & H3 & _). destruct (H3 d Hin) as (H4 & _). contradiction.
Qed.
Lemma whole_same : forall h g l, (forall i, n_pre (g i) = n_pre (h i) /\ n_suf (g i) = n_suf (h i)) -> whole g l = whole h l.
Proof. intros. apply whole_ext. intros. destruct (H t) as (-> & ->); auto. Qed.

Lemma ndirs_same : forall h g l, (forall d, In d l -> isdird g d = isdird h d) -> ndirs g l = ndirs h l.
Proof. intros. unfold ndirs. f_equal. apply filter_ext_in. auto. Qed.
(** Changing links, flags and types of directives into types of directives. *)
Lemma wfl_soft : forall h g, W h -> (forall i, n_pre (g i) = n_pre (h i) /\ n_suf (g i) = n_suf (h i) /\ n_parent (g i) = n_parent (h i) /\ n_refs (g i) = n_refs (h i)) ->
  (forall i, isdird g i = isdird h i) -> (forall t, In t (x_toks x) -> n_type (g t) = n_type (h t)) -> W g.
Proof.
  intros h g [W1 W2 W3 W4] H Hd Ht. cbn [x_heap set_heap x_toks] in *. constructor; cbn [x_heap set_heap x_toks].
  - rewrite (whole_same h); auto. intros i. destruct (H i) as (A & B & _). auto.
  - destruct W2 as (body & e & B1 & B2 & B3). exists body, e. unfold tyof in *. cbn [x_heap set_heap] in *. split; auto. rewrite Forall_forall in *.
    split; [rewrite Ht; auto; rewrite B1; apply in_or_app; right; left; auto|]. intros t K. rewrite Ht; [auto|rewrite B1; apply in_or_app; auto].
  - intros t d K1 K2 K3. destruct (H t) as (A & _), (H d) as (_ & _ & B & _). rewrite A in K2. rewrite Hd in K3. rewrite B. auto.
  - intros t K. destruct (H t) as (A & _ & _ & B). rewrite A, B, W4 by auto. rewrite (ndirs_same h g); auto.
Qed.

Lemma ndirs_drop : forall h g l d, NoDup l -> In d l -> isdird h d = true -> isdird g d = false -> (forall e, e <> d -> isdird g e = isdird h e) -> ndirs h l = S (ndirs g l).
Proof.
  intros h g l d. unfold ndirs. induction l as [|e l IH]; intros Nl Hi Hd Hg Ho; [destruct Hi|]. apply NoDup_cons_iff in Nl. destruct Nl as (N1 & N2). cbn [filter].
  destruct Hi as [->|Hi].
  - rewrite Hd, Hg. cbn. f_equal. f_equal. apply filter_ext_in. intros e He. symmetry. apply Ho. intros ->. auto.
  - assert (e <> d) by (intros ->; auto). rewrite (Ho e) by auto. destruct (isdird h e); cbn; rewrite (IH N2 Hi Hd Hg Ho); auto.
Qed.

Lemma exhaust_spec : forall h d t, W h -> In t (x_toks x) -> In d (n_pre (h t)) -> isdird h d = true ->
  exists g, branch_exhaust d h = Some g /\ W g /\ frameb h g /\
    (forall i, i <> d -> n_type (g i) = n_type (h i) /\ n_pv (g i) = n_pv (h i) /\ n_nx (g i) = n_nx (h i) /\ n_parent (g i) = n_parent (h i)) /\
    n_type (g d) = T_CPP /\ n_pv (g d) = None /\ n_nx (g d) = None /\ n_parent (g d) = None /\
    (forall i, i <> t -> n_refs (g i) = n_refs (h i)) /\ n_refs (g t) + 1 = n_refs (h t).
Proof.
  intros h d t Hw Ht Hd Hi. destruct Hw as [W1 W2 W3 W4]. cbn [x_heap set_heap x_toks] in *. pose proof (W3 t d Ht Hd Hi) as Hpar.
  assert (Hdt : ~ In d (x_toks x)) by (eapply isp_not_tok; eauto; exists t; auto).
  assert (Hne : d <> t) by (intros ->; auto).
  unfold branch_exhaust. set (h1 := modify h d _).
  assert (E1 : n_parent (h1 d) = Some t) by (unfold h1; rewrite mod_eq; auto). rewrite E1.
  set (h2 := update_flags t h1). destruct (update_flags_spec t h1) as [Fo Fs _ _]. fold h2 in Fo, Fs.
  assert (Npre : NoDup (n_pre (h t))) by (destruct (whole_disj h (x_toks x) t W1 Ht) as (K1 & _); auto).
  assert (R2 : n_refs (h2 t) = n_refs (h t)) by (rewrite Fs; cbn; unfold h1; rewrite mod_neq by auto; auto).
  assert (R3 : n_refs (h t) >= 2).
  { rewrite W4 by auto. assert (ndirs h (n_pre (h t)) >= 1); [|lia]. unfold ndirs. destruct (filter (isdird h) (n_pre (h t))) as [|y l] eqn:Ef; [|cbn; lia].
    exfalso. assert (In d []); [|auto]. rewrite <- Ef. apply filter_In. auto. }
  rewrite rele_many by lia. rewrite R2. set (h3 := modify h2 t (set_refs (n_refs (h t) - 1))). set (g := modify h3 d (set_parent None)). exists g. split; auto.
  assert (G : forall i, i <> d -> i <> t -> g i = h i).
  { intros i N1 N2. unfold g. rewrite mod_neq by auto. unfold h3. rewrite mod_neq by auto. rewrite Fo by auto. unfold h1. rewrite mod_neq; auto. }
  assert (Gd : g d = set_parent None (set_pv None (set_nx None (set_type T_CPP (h d))))).
  { unfold g. rewrite mod_eq. unfold h3. rewrite mod_neq by auto. rewrite Fo by auto. unfold h1. rewrite mod_eq. auto. }
  assert (GT : g t = set_refs (n_refs (h t) - 1) (set_flags (n_flags (h2 t)) (h t))).
  { unfold g. rewrite mod_neq by auto. unfold h3. rewrite mod_eq. rewrite Fs at 1. unfold h1. rewrite mod_neq by auto. auto. }
  assert (Gb : forall i, i <> d -> n_type (g i) = n_type (h i) /\ n_pv (g i) = n_pv (h i) /\ n_nx (g i) = n_nx (h i) /\ n_parent (g i) = n_parent (h i)).
  { intros i N. destruct (Nat.eq_dec i t) as [->|N2]; [rewrite GT; cbn; auto|rewrite G; auto]. }
  assert (Fm : frameb h g).
  { intros i. destruct (Nat.eq_dec i d) as [->|N]; [rewrite Gd; cbn; auto 10|]. destruct (Nat.eq_dec i t) as [->|N2]; [rewrite GT; cbn; auto 10|rewrite G; auto 10]. }
  assert (Gr : forall i, i <> t -> n_refs (g i) = n_refs (h i)).
  { intros i N. destruct (Nat.eq_dec i d) as [->|N2]; [rewrite Gd; auto|rewrite G; auto]. }
  split; [|split; [auto|split; [auto|rewrite Gd; cbn; repeat (split; auto); rewrite GT; cbn; lia]]].
  assert (Dg : isdird g d = false) by (unfold isdird; rewrite Gd; auto).
  assert (Do : forall e, e <> d -> isdird g e = isdird h e) by (intros e Ne; unfold isdird; destruct (Gb e Ne) as (-> & _); auto).
  constructor; cbn [x_heap set_heap x_toks].
  - rewrite (whole_same h); auto. intros i. destruct (Fm i) as (A & B & _). auto.
  - destruct W2 as (body & e & B1 & B2 & B3). exists body, e. unfold tyof in *. cbn [x_heap set_heap] in *. split; auto. rewrite Forall_forall in *.
    assert (Ty : forall u, In u (x_toks x) -> n_type (g u) = n_type (h u)) by (intros u Hu; apply Gb; intros ->; auto).
    split; [rewrite Ty; auto; rewrite B1; apply in_or_app; right; left; auto|]. intros u K. rewrite Ty; [auto|rewrite B1; apply in_or_app; auto].
  - intros u e K1 K2 K3. destruct (Fm u) as (A & _). rewrite A in K2. destruct (Nat.eq_dec e d) as [->|Ne]; [congruence|]. rewrite Do in K3 by auto.
    destruct (Gb e Ne) as (_ & _ & _ & ->). auto.
  - intros u K. destruct (Fm u) as (A & _). rewrite A. destruct (Nat.eq_dec u t) as [->|Ne].
    + rewrite GT. cbn [n_refs set_refs]. rewrite W4 by auto. rewrite (ndirs_drop h g _ d) by auto. lia.
    + rewrite Gr by auto. rewrite W4 by auto. rewrite (ndirs_same h g (n_pre (h u))); auto. intros e He. apply Do. intros ->.
      apply Ne. rewrite <- (owner_spec h (x_toks x) u d W1 K He). apply owner_spec; auto.
Qed.

Lemma update_parent_spec : forall h d t, n_parent (h d) = Some t -> update_parent_flags d h = Some (update_flags t h).
Proof. intros h d t H. unfold update_parent_flags. rewrite H. auto. Qed.

Lemma mid : forall (a b : list id) d i m e, a ++ d :: b = i :: m ++ [e] ->
  (a = [] /\ d = i /\ b = m ++ [e]) \/ (b = [] /\ a = i :: m /\ d = e) \/ (exists a' b', a = i :: a' /\ b = b' ++ [e] /\ m = a' ++ d :: b').
Proof.
  intros a b d i m e H. destruct a as [|i' a]; cbn in H; [left; injection H as -> ->; auto|]. injection H as -> H. right.
  destruct b as [|f b] using rev_ind.
  - left. apply app_inj_tail in H. destruct H as (-> & ->). auto.
  - right. clear IHb. change (a ++ d :: b ++ [f]) with (a ++ (d :: b) ++ [f]) in H. rewrite app_assoc in H. apply app_inj_tail in H. destruct H as (<- & ->). exists a, b. auto.
Qed.
Lemma frame_pre : forall h g : heap, frameb h g -> forall i, n_pre (g i) = n_pre (h i).
Proof. intros h g F i. apply F. Qed.
Lemma soft_isdird : forall h g : heap, (forall i, n_type (g i) = n_type (h i) \/ isdir (n_type (g i)) = isdir (n_type (h i))) -> forall i, isdird g i = isdird h i.
Proof. intros h g H i. unfold isdird. destruct (H i) as [->|]; auto. Qed.

(** Unlinking one directive takes it out of its conditional. *)
Lemma unlink_spec : forall h cs d, W h -> chained h (x_toks x) cs -> isp h d ->
  exists g cs', branch_unlink d h = Some g /\ W g /\ chained g (x_toks x) cs' /\ frameb h g /\ isdird g d = false /\ (forall e, isdird g e = true -> isdird h e = true) /\
    (forall k, ~ In k (x_toks x) -> n_refs (g k) = n_refs (h k)).
Proof.
  intros h cs d Hw Hc Hp. destruct (isdird h d) eqn:Hd.
  2:{ exists h, cs. unfold branch_unlink. split.
      - unfold isdird, isdir in Hd. unfold norm. destruct (type_normalize (n_type (h d))); auto; discriminate.
      - split; auto. split; auto. split; [apply frameb_refl|]. auto. }
  assert (Hin : In d (concat cs)) by (apply (ch_dirs _ _ _ Hc); auto).
  apply in_concat in Hin. destruct Hin as (c & Hc1 & Hc2). destruct (ch_each _ _ _ Hc c Hc1) as (Sh & Sg).
  destruct Sh as (i & m & e & Ec & Ti & Tm & Te).
  assert (Mem : forall f, In f c -> isp h f /\ isdird h f = true).
  { intros f Hf. apply (ch_dirs _ _ _ Hc). apply in_concat. eauto. }
  assert (Nc : NoDup c).
  { pose proof (ch_nodup _ _ _ Hc) as N. apply in_split in Hc1. destruct Hc1 as (A & B & ->). rewrite concat_app in N. apply nodup_app_r in N. cbn [concat] in N. apply nodup_app_l in N. auto. }
  apply in_split in Hc1. destruct Hc1 as (A & B & ->).
  assert (Par : forall f, In f c -> exists t, In t (x_toks x) /\ In f (n_pre (h t)) /\ n_parent (h f) = Some t).
  { intros f Hf. destruct (Mem f Hf) as ((t & T1 & T2) & T3). exists t. split; auto. split; auto. apply (wl_parent _ _ Hw); auto. }
  assert (Ntok : forall f, In f c -> ~ In f (x_toks x)).
  { intros f Hf. apply (isp_not_tok h); [apply (wl_nodup _ _ Hw)|apply Mem; auto]. }
  apply in_split in Hc2. destruct Hc2 as (a & b & Eab). assert (Eab2 := Eab). rewrite Ec in Eab2.
  destruct (mid a b d i m e (eq_sym Eab2)) as [(-> & -> & ->)|[(-> & -> & ->)|(a' & b' & -> & -> & ->)]]; clear Eab2.
  - (* #if *)
    cbn [app] in Eab. subst c. cbn [seg] in Sg. destruct Sg as (Pv & Nx & Sg). unfold branch_unlink. rewrite Ti, Pv, Nx.
    destruct m as [|n m]; cbn [app hd_or].
    + rewrite Te. destruct (Par e) as (te & T1 & T2 & _); [right; left; auto|]. destruct (Par i) as (ti & T3 & T4 & _); [left; auto|].
      destruct (exhaust_spec h e te Hw T1 T2) as (h1 & -> & W1 & F1 & O1 & Y1 & Y2 & Y3 & _ & Y5 & _); [apply Mem; right; left; auto|].
      assert (Nei : e <> i) by (intros ->; apply NoDup_cons_iff in Nc; destruct Nc as (K & _); apply K; left; auto).
      destruct (exhaust_spec h1 i ti W1 T3) as (g & -> & W2 & F2 & O2 & Z1 & Z2 & Z3 & _ & Z5 & _).
      { rewrite (frame_pre _ _ F1); auto. } { unfold isdird. destruct (O1 i) as (-> & _); [auto|]. apply Mem; left; auto. }
      exists g. eexists. split; [reflexivity|]. split; auto.
      assert (Fm : frameb h g) by (eapply frameb_trans; eauto).
      assert (De : isdird g e = false). { unfold isdird. destruct (O2 e) as (-> & _); auto. rewrite Y1. auto. }
      assert (Di : isdird g i = false) by (unfold isdird; rewrite Z1; auto).
      split; [|split; [auto|split; [auto|split; [|intros k Hk; rewrite Z5, Y5; auto; intros ->; auto]]]].
      * apply (surgery h g (x_toks x) A [i; e] B [i; e] []); auto.
        -- apply frame_pre; auto.
        -- intros j Hj. assert (j <> i /\ j <> e) as (J1 & J2) by (split; intros ->; apply Hj; [left|right; left]; auto).
           destruct (O2 j J1) as (-> & -> & -> & _). destruct (O1 j J2) as (-> & -> & -> & _). auto.
        -- intros j [<-|[<-|[]]]; auto.
        -- congruence.
      * intros j Hj. destruct (Nat.eq_dec j i) as [->|J1]; [apply Mem; left; auto|]. destruct (Nat.eq_dec j e) as [->|J2]; [apply Mem; right; left; auto|].
        unfold isdird in *. destruct (O2 j J1) as (K & _). destruct (O1 j J2) as (K2 & _). congruence.
    + inversion Tm as [|? ? Tn Tm']; subst. rewrite Tn. set (h1 := modify h n _).
      assert (Nni : n <> i) by (intros ->; apply NoDup_cons_iff in Nc; destruct Nc as (K & _); apply K; left; auto).
      destruct (Par n) as (tn & T1 & T2 & T5); [right; left; auto|]. destruct (Par i) as (ti & T3 & T4 & _); [left; auto|].
      rewrite (update_parent_spec h1 n tn) by (unfold h1; rewrite mod_eq; auto).
      pose proof (flagsonly_fields _ _ (flagsonly_update h1 tn)) as (U1 & U2 & U3). set (h2 := update_flags tn h1) in *.
      assert (M1 : forall j, j <> n -> h1 j = h j) by (intros; unfold h1; apply mod_neq; auto).
      assert (M2 : h1 n = set_type T_CPP_IF (set_pv None (h n))) by (unfold h1; rewrite mod_eq; auto).
      assert (F01 : frameb h h1) by (intros j; destruct (Nat.eq_dec j n) as [->|J]; [rewrite M2; cbn; auto 10|rewrite M1; auto 10]).
      assert (W2 : W h2).
      { apply (wfl_soft h); auto.
        - intros j. destruct (U1 j) as (-> & -> & _), (U2 j) as (_ & _ & _ & ->). rewrite U3. destruct (F01 j) as (-> & -> & _). split; auto. split; auto. destruct (Nat.eq_dec j n) as [->|J]; [rewrite M2; auto|rewrite M1; auto].
        - intros j. unfold isdird. destruct (U2 j) as (-> & _). destruct (Nat.eq_dec j n) as [->|J]; [rewrite M2|rewrite M1; auto]. cbn. symmetry. apply Mem. right; left; auto.
        - intros j Hj. destruct (U2 j) as (-> & _). rewrite M1; auto. intros ->. eapply Ntok; [|exact Hj]. right; left; auto. }
      destruct (exhaust_spec h2 i ti W2 T3) as (g & -> & W3 & F2 & O2 & Z1 & Z2 & Z3 & _ & Z5 & _).
      { rewrite (frame_pre _ _ U1), (frame_pre _ _ F01); auto. } { unfold isdird. destruct (U2 i) as (-> & _). rewrite M1 by auto. apply Mem; left; auto. }
      exists g. eexists. split; [reflexivity|]. split; auto.
      assert (Fm : frameb h g) by (eapply frameb_trans; [|exact F2]; eapply frameb_trans; eauto).
      assert (Di : isdird g i = false) by (unfold isdird; rewrite Z1; auto).
      assert (Oo : forall j, j <> i -> j <> n -> n_type (g j) = n_type (h j) /\ n_pv (g j) = n_pv (h j) /\ n_nx (g j) = n_nx (h j)).
      { intros j J1 J2. destruct (O2 j J1) as (-> & -> & -> & _). destruct (U2 j) as (-> & -> & -> & _). rewrite M1; auto. }
      assert (On : n_type (g n) = T_CPP_IF /\ n_pv (g n) = None /\ n_nx (g n) = n_nx (h n)).
      { destruct (O2 n Nni) as (-> & -> & -> & _). destruct (U2 n) as (-> & -> & -> & _). rewrite M2; auto. }
      cbn [app] in Nc. apply NoDup_cons_iff in Nc. destruct Nc as (Ni & Nc). apply NoDup_cons_iff in Nc. destruct Nc as (Nn & Nc).
      assert (Oc : forall j, In j (m ++ [e]) -> n_type (g j) = n_type (h j) /\ n_pv (g j) = n_pv (h j) /\ n_nx (g j) = n_nx (h j)).
      { intros j Hj. apply Oo; intros ->; [apply Ni; right; auto|auto]. }
      split; [|split; [auto|split; [auto|split; [|intros k Hk; rewrite Z5 by (intros ->; auto); rewrite U3; destruct (Nat.eq_dec k n) as [->|J]; [rewrite M2; auto|rewrite M1; auto]]]]].
      * apply (surgery h g (x_toks x) A (i :: n :: m ++ [e]) B [i] (n :: m ++ [e])); auto.
        -- apply frame_pre; auto.
        -- intros j Hj. apply Oo; intros ->; apply Hj; [left|right; left]; auto.
        -- intros j [<-|[]]; auto.
        -- intros j [<-|Hj]; [unfold isdird; destruct On as (-> & _); auto|]. unfold isdird. destruct (Oc j Hj) as (-> & _). apply Mem. right; right; auto.
        -- intros _. split.
           ++ exists n, m, e. split; auto. unfold norm in *. destruct On as (-> & _). split; auto. split.
              ** rewrite Forall_forall in *. intros j Hj. destruct (Oc j) as (-> & _); auto. apply in_or_app; auto.
              ** destruct (Oc e) as (-> & _); auto. apply in_or_app; right; left; auto.
           ++ cbn [app seg] in Sg |- *. destruct Sg as (S1 & S2 & S3). destruct On as (_ & -> & ->). split; auto. split; auto.
              eapply seg_ext; [|exact S3]. intros j Hj. apply Oc; auto.
      * intros j Hj. destruct (in_dec Nat.eq_dec j (i :: n :: m ++ [e])) as [K|K]; [apply Mem; auto|].
        unfold isdird in *. destruct (Oo j) as (K2 & _); [intros ->; apply K; left; auto|intros ->; apply K; right; left; auto|]. congruence.
  - (* #endif *)
    subst c. cbn [app] in *.
    assert (Sg2 := Sg). change (i :: m ++ [e]) with ((i :: m) ++ [e]) in Sg2. rewrite seg_app in Sg2. destruct Sg2 as (Sg1 & (Pv & Nx & _)). cbn [hd_or] in Sg1, Nx.
    unfold branch_unlink. rewrite Te, Pv, Nx.
    assert (Nec : ~ In e (i :: m)) by (intros K; change (i :: m ++ [e]) with ((i :: m) ++ [e]) in Nc; eapply (nodup_app_disj _ _ e Nc); auto; left; auto).
    destruct m as [|n m _] using rev_ind; cbn [app rev hd_or].
    + rewrite Ti. destruct (Par e) as (te & T1 & T2 & _); [right; left; auto|]. destruct (Par i) as (ti & T3 & T4 & _); [left; auto|].
      assert (Nei : e <> i) by (intros ->; apply Nec; left; auto).
      destruct (exhaust_spec h i ti Hw T3 T4) as (h1 & -> & W1 & F1 & O1 & Y1 & Y2 & Y3 & _ & Y5 & _); [apply Mem; left; auto|].
      destruct (exhaust_spec h1 e te W1 T1) as (g & -> & W2 & F2 & O2 & Z1 & Z2 & Z3 & _ & Z5 & _).
      { rewrite (frame_pre _ _ F1); auto. } { unfold isdird. destruct (O1 e) as (-> & _); [auto|]. apply Mem; right; left; auto. }
      exists g. eexists. split; [reflexivity|]. split; auto.
      assert (Fm : frameb h g) by (eapply frameb_trans; eauto).
      assert (De : isdird g e = false) by (unfold isdird; rewrite Z1; auto).
      assert (Di : isdird g i = false). { unfold isdird. destruct (O2 i) as (-> & _); auto. rewrite Y1. auto. }
      split; [|split; [auto|split; [auto|split; [|intros k Hk; rewrite Z5, Y5; auto; intros ->; auto]]]].
      * apply (surgery h g (x_toks x) A [i; e] B [i; e] []); auto.
        -- apply frame_pre; auto.
        -- intros j Hj. assert (j <> i /\ j <> e) as (J1 & J2) by (split; intros ->; apply Hj; [left|right; left]; auto).
           destruct (O2 j J2) as (-> & -> & -> & _). destruct (O1 j J1) as (-> & -> & -> & _). auto.
        -- intros j [<-|[<-|[]]]; auto.
        -- congruence.
      * intros j Hj. destruct (Nat.eq_dec j i) as [->|J1]; [apply Mem; left; auto|]. destruct (Nat.eq_dec j e) as [->|J2]; [apply Mem; right; left; auto|].
        unfold isdird in *. destruct (O2 j J2) as (K & _). destruct (O1 j J1) as (K2 & _). congruence.
    + rewrite rev_app_distr. cbn [rev app hd_or].
      apply Forall_app in Tm. destruct Tm as (Tm' & Tn). inversion Tn as [|? ? Tn' _]; subst. rewrite Tn'. set (h1 := modify h n _).
      assert (Inn : In n (i :: (m ++ [n]) ++ [e])) by (right; apply in_or_app; left; apply in_or_app; right; left; auto).
      assert (Ine : In e (i :: (m ++ [n]) ++ [e])) by (right; apply in_or_app; right; left; auto).
      assert (Nni : n <> e) by (intros ->; apply Nec; right; apply in_or_app; right; left; auto).
      destruct (Par n Inn) as (tn & T1 & T2 & T5). destruct (Par e Ine) as (te & T3 & T4 & _).
      rewrite (update_parent_spec h1 n tn) by (unfold h1; rewrite mod_eq; auto).
      pose proof (flagsonly_fields _ _ (flagsonly_update h1 tn)) as (U1 & U2 & U3). set (h2 := update_flags tn h1) in *.
      assert (M1 : forall j, j <> n -> h1 j = h j) by (intros; unfold h1; apply mod_neq; auto).
      assert (M2 : h1 n = set_type T_CPP_ENDIF (set_nx None (h n))) by (unfold h1; rewrite mod_eq; auto).
      assert (F01 : frameb h h1) by (intros j; destruct (Nat.eq_dec j n) as [->|J]; [rewrite M2; cbn; auto 10|rewrite M1; auto 10]).
      assert (W2 : W h2).
      { apply (wfl_soft h); auto.
        - intros j. destruct (U1 j) as (-> & -> & _), (U2 j) as (_ & _ & _ & ->). rewrite U3. destruct (F01 j) as (-> & -> & _). split; auto. split; auto. destruct (Nat.eq_dec j n) as [->|J]; [rewrite M2; auto|rewrite M1; auto].
        - intros j. unfold isdird. destruct (U2 j) as (-> & _). destruct (Nat.eq_dec j n) as [->|J]; [rewrite M2|rewrite M1; auto]. cbn. symmetry. apply Mem. auto.
        - intros j Hj. destruct (U2 j) as (-> & _). rewrite M1; auto. intros ->. eapply Ntok; [|exact Hj]. auto. }
      destruct (exhaust_spec h2 e te W2 T3) as (g & -> & W3 & F2 & O2 & Z1 & Z2 & Z3 & _ & Z5 & _).
      { rewrite (frame_pre _ _ U1), (frame_pre _ _ F01); auto. } { unfold isdird. destruct (U2 e) as (-> & _). rewrite M1 by auto. apply Mem; auto. }
      exists g. eexists. split; [reflexivity|]. split; auto.
      assert (Fm : frameb h g) by (eapply frameb_trans; [|exact F2]; eapply frameb_trans; eauto).
      assert (Di : isdird g e = false) by (unfold isdird; rewrite Z1; auto).
      assert (Oo : forall j, j <> e -> j <> n -> n_type (g j) = n_type (h j) /\ n_pv (g j) = n_pv (h j) /\ n_nx (g j) = n_nx (h j)).
      { intros j J1 J2. destruct (O2 j J1) as (-> & -> & -> & _). destruct (U2 j) as (-> & -> & -> & _). rewrite M1; auto. }
      assert (On : n_type (g n) = T_CPP_ENDIF /\ n_nx (g n) = None /\ n_pv (g n) = n_pv (h n)).
      { destruct (O2 n Nni) as (-> & -> & -> & _). destruct (U2 n) as (-> & -> & -> & _). rewrite M2; auto. }
      assert (Nn : ~ In n (i :: m)).
      { change (i :: (m ++ [n]) ++ [e]) with (((i :: m) ++ [n]) ++ [e]) in Nc. apply nodup_app_l in Nc. intros K. eapply (nodup_app_disj _ _ n Nc); auto. left; auto. }
      assert (Oc : forall j, In j (i :: m) -> n_type (g j) = n_type (h j) /\ n_pv (g j) = n_pv (h j) /\ n_nx (g j) = n_nx (h j)).
      { intros j Hj. apply Oo; intros ->; [apply Nec|auto]. change (i :: m ++ [n]) with ((i :: m) ++ [n]). apply in_or_app; auto. }
      split; [|split; [auto|split; [auto|split; [|intros k Hk; rewrite Z5 by (intros ->; auto); rewrite U3; destruct (Nat.eq_dec k n) as [->|J]; [rewrite M2; auto|rewrite M1; auto]]]]].
      * apply (surgery h g (x_toks x) A (i :: (m ++ [n]) ++ [e]) B [e] (i :: m ++ [n])); auto.
        -- apply frame_pre; auto.
        -- intros j Hj. apply Oo; intros ->; apply Hj; auto.
        -- permc.
        -- intros j [<-|[]]; auto.
        -- intros j Hj. change (i :: m ++ [n]) with ((i :: m) ++ [n]) in Hj. apply in_app_or in Hj. destruct Hj as [Hj|[<-|[]]]; [|unfold isdird; destruct On as (-> & _); auto].
           unfold isdird. destruct (Oc j Hj) as (-> & _). apply Mem. destruct Hj as [->|Hj]; [left; auto|right; apply in_or_app; left; apply in_or_app; auto].
        -- intros _. split.
           ++ exists i, m, n. split; auto. unfold norm in *. destruct On as (-> & _). split; [|split; auto].
              ** destruct (Oc i) as (-> & _); auto. left; auto.
              ** rewrite Forall_forall in *. intros j Hj. destruct (Oc j) as (-> & _); auto. right; auto.
           ++ change (i :: m ++ [n]) with ((i :: m) ++ [n]) in Sg1 |- *. rewrite seg_app in Sg1 |- *. destruct Sg1 as (S1 & S2 & S3 & _).
              split; [eapply seg_ext; [|exact S1]; intros j Hj; apply Oc; auto|]. cbn [seg hd_or]. destruct On as (_ & -> & ->). auto.
      * intros j Hj. destruct (in_dec Nat.eq_dec j (i :: (m ++ [n]) ++ [e])) as [K|K]; [apply Mem; auto|].
        unfold isdird in *. destruct (Oo j) as (K2 & _); [intros ->; apply K; auto|intros ->; apply K; auto|]. congruence.
  - (* #else *)
    assert (Td : norm h d = T_CPP_ELSE) by (rewrite Forall_forall in Tm; apply Tm; apply in_or_app; right; left; auto).
    assert (Ep : exists a0 p, i :: a' = a0 ++ [p]) by (destruct (exists_last (l := i :: a')) as (a0 & p & ->); [discriminate|eauto]). destruct Ep as (a0 & p & Ep).
    assert (En : exists n b0, b' ++ [e] = n :: b0) by (destruct b'; cbn; eauto). destruct En as (n & b0 & En).
    assert (Cc : c = a0 ++ p :: d :: n :: b0) by (rewrite Eab, Ep, En, <- app_assoc; auto).
    assert (Sg2 := Sg). rewrite Cc in Sg2. rewrite seg_app in Sg2. cbn [seg hd_or] in Sg2. destruct Sg2 as (G1 & G2 & G3 & G4 & G5 & G6 & G7 & G8).
    unfold branch_unlink. rewrite Td, G4, G5.
    assert (N' : NoDup (a0 ++ p :: d :: n :: b0)) by (rewrite <- Cc; auto).
    assert (Ndist : p <> d /\ n <> d /\ p <> n /\ ~ In p a0 /\ ~ In d a0 /\ ~ In n a0 /\ ~ In p b0 /\ ~ In d b0 /\ ~ In n b0).
    { assert (Q := fun y => nodup_app_disj _ _ y N'). apply nodup_app_r in N'. apply NoDup_cons_iff in N'. destruct N' as (Q1 & N'). apply NoDup_cons_iff in N'. destruct N' as (Q2 & N'). apply NoDup_cons_iff in N'. destruct N' as (Q3 & N').
      cbn [In] in *. repeat split; intros K; subst; try tauto; first [apply (Q p); cbn; tauto|apply (Q d); cbn; tauto|apply (Q n); cbn; tauto]. }
    destruct Ndist as (D1 & D2 & D3 & D4 & D5 & D6 & D7 & D8 & D9).
    assert (Inc : forall j, In j c <-> In j (a0 ++ p :: d :: n :: b0)) by (intros; rewrite <- Cc; tauto).
    assert (Inp : In p c) by (apply Inc; apply in_or_app; right; left; auto).
    assert (Inn : In n c) by (apply Inc; apply in_or_app; right; right; right; left; auto).
    assert (Ind : In d c) by (apply Inc; apply in_or_app; right; right; left; auto).
    destruct (Par p Inp) as (tp & T1 & T2 & T3). destruct (Par n Inn) as (tn & T4 & T5 & T6). destruct (Par d Ind) as (td & T7 & T8 & T9).
    set (h1 := modify h p (set_nx (Some n))). set (h2 := modify h1 n (set_pv (Some p))).
    assert (Mo : forall j, j <> p -> j <> n -> h2 j = h j) by (intros; unfold h2, h1; rewrite !mod_neq by auto; auto).
    assert (Mp : h2 p = set_nx (Some n) (h p)) by (unfold h2, h1; rewrite mod_neq, mod_eq by auto; auto).
    assert (Mn : h2 n = set_pv (Some p) (h n)) by (unfold h2, h1; rewrite mod_eq, mod_neq by auto; auto).
    rewrite (update_parent_spec h2 p tp) by (rewrite Mp; auto).
    pose proof (flagsonly_fields _ _ (flagsonly_update h2 tp)) as (U1 & U2 & U3). set (h3 := update_flags tp h2) in *.
    rewrite (update_parent_spec h3 n tn) by (destruct (U2 n) as (_ & _ & _ & ->); rewrite Mn; auto).
    pose proof (flagsonly_fields _ _ (flagsonly_update h3 tn)) as (V1 & V2 & V3). set (h4 := update_flags tn h3) in *.
    assert (F01 : frameb h h2).
    { intros j; destruct (Nat.eq_dec j n) as [->|J]; [rewrite Mn; cbn; auto 10|]. destruct (Nat.eq_dec j p) as [->|J2]; [rewrite Mp; cbn; auto 10|rewrite Mo; auto 10]. }
    assert (F04 : frameb h h4) by (eapply frameb_trans; [exact F01|]; eapply frameb_trans; eauto).
    assert (S4 : forall j, n_type (h4 j) = n_type (h j) /\ n_parent (h4 j) = n_parent (h j) /\ n_refs (h4 j) = n_refs (h j)).
    { intros j. destruct (V2 j) as (-> & _ & _ & ->). rewrite V3. destruct (U2 j) as (-> & _ & _ & ->). rewrite U3.
      destruct (Nat.eq_dec j n) as [->|J]; [rewrite Mn; cbn; auto 10|]. destruct (Nat.eq_dec j p) as [->|J2]; [rewrite Mp; cbn; auto 10|rewrite Mo; auto 10]. }
    assert (L4 : forall j, n_pv (h4 j) = n_pv (h2 j) /\ n_nx (h4 j) = n_nx (h2 j)).
    { intros j. destruct (V2 j) as (_ & -> & -> & _). destruct (U2 j) as (_ & -> & -> & _). auto. }
    assert (W4 : W h4).
    { apply (wfl_soft h); auto.
      - intros j. destruct (F04 j) as (-> & -> & _). destruct (S4 j) as (_ & -> & ->). auto.
      - intros j. unfold isdird. destruct (S4 j) as (-> & _). auto.
      - intros j _. apply S4. }
    destruct (exhaust_spec h4 d td W4 T7) as (g & -> & W5 & F2 & O2 & Z1 & Z2 & Z3 & _ & Z5 & _).
    { rewrite (frame_pre _ _ F04); auto. } { unfold isdird. destruct (S4 d) as (-> & _). apply Mem; auto. }
    exists g. eexists. split; [reflexivity|]. split; auto.
    assert (Fm : frameb h g) by (eapply frameb_trans; eauto).
    assert (Di : isdird g d = false) by (unfold isdird; rewrite Z1; auto).
    assert (Ty : forall j, j <> d -> n_type (g j) = n_type (h j)) by (intros j J; destruct (O2 j J) as (-> & _); apply S4).
    assert (Oo : forall j, j <> d -> j <> n -> j <> p -> n_pv (g j) = n_pv (h j) /\ n_nx (g j) = n_nx (h j)).
    { intros j J1 J2 J3. destruct (O2 j J1) as (_ & -> & -> & _). destruct (L4 j) as (-> & ->). rewrite Mo; auto. }
    assert (Op : n_pv (g p) = n_pv (h p) /\ n_nx (g p) = Some n) by (destruct (O2 p) as (_ & -> & -> & _); auto; destruct (L4 p) as (-> & ->); rewrite Mp; auto).
    assert (On : n_pv (g n) = Some p /\ n_nx (g n) = n_nx (h n)) by (destruct (O2 n) as (_ & -> & -> & _); auto; destruct (L4 n) as (-> & ->); rewrite Mn; auto).
    split; [|split; [auto|split; [auto|split; [|intros k Hk; rewrite Z5 by (intros ->; auto); apply S4]]]].
    + apply (surgery h g (x_toks x) A c B [d] (i :: (a' ++ b') ++ [e])); auto.
      * apply frame_pre; auto.
      * intros j Hj. split; [apply Ty; intros ->; auto|]. apply Oo; intros ->; auto.
      * rewrite Ec. permc.
      * intros j [<-|[]]; auto.
      * assert (Q : NoDup (d :: i :: (a' ++ b') ++ [e])). { eapply Permutation_NoDup; [|exact Nc]. rewrite Ec. permc. }
        intros j Hj. apply NoDup_cons_iff in Q. destruct Q as (Q & _). unfold isdird. rewrite Ty by (intros ->; auto). apply Mem.
        apply (Permutation_in (l := d :: i :: (a' ++ b') ++ [e])); [rewrite Ec; permc|right; auto].
      * intros _. split.
        -- assert (Q : NoDup (d :: i :: (a' ++ b') ++ [e])). { eapply Permutation_NoDup; [|exact Nc]. rewrite Ec. permc. } apply NoDup_cons_iff in Q. destruct Q as (Q & _).
           exists i, (a' ++ b'), e. split; auto. unfold norm in *. rewrite !Ty by (intros ->; apply Q; cbn; auto; right; apply in_or_app; right; left; auto).
           split; auto. split; auto. rewrite Forall_forall in *. intros j Hj. rewrite Ty; [apply Tm; apply in_app_or in Hj; apply in_or_app; destruct Hj; auto; right; right; auto|].
           intros ->. apply Q. right. apply in_or_app; auto.
        -- replace (i :: (a' ++ b') ++ [e]) with (a0 ++ p :: n :: b0).
           2:{ rewrite <- En. rewrite <- app_assoc. change (i :: a' ++ b' ++ [e]) with ((i :: a') ++ b' ++ [e]). rewrite Ep, <- app_assoc. auto. }
           rewrite seg_app. cbn [seg hd_or]. destruct Op as (-> & ->), On as (-> & ->). repeat (split; auto).
           ++ eapply seg_ext; [|exact G1]. intros j Hj. apply Oo; intros ->; auto.
           ++ eapply seg_ext; [|exact G8]. intros j Hj. apply Oo; intros ->; auto.
    + intros j Hj. destruct (Nat.eq_dec j d) as [->|J]; auto. unfold isdird in *. rewrite Ty in Hj; auto.
Qed.

Lemma unlink_all_spec : forall l h cs t, W h -> chained h (x_toks x) cs -> In t (x_toks x) -> (forall d, In d l -> In d (n_pre (h t))) ->
  exists g cs', unlink_all l h = Some g /\ W g /\ chained g (x_toks x) cs' /\ frameb h g /\ (forall d, In d l -> isdird g d = false) /\ (forall e, isdird g e = true -> isdird h e = true) /\
    (forall k, ~ In k (x_toks x) -> n_refs (g k) = n_refs (h k)).
Proof.
  induction l as [|d l IH]; intros h cs t Hw Hc Ht Hl.
  - exists h, cs. cbn. split; auto. split; auto. split; auto. split; [apply frameb_refl|]. split; [intros d []|auto].
  - cbn [unlink_all]. destruct (unlink_spec h cs d Hw Hc) as (g & cs1 & -> & W1 & C1 & F1 & D1 & M1 & R1); [exists t; split; auto; apply Hl; left; auto|].
    destruct (IH g cs1 t W1 C1 Ht) as (g2 & cs2 & -> & W2 & C2 & F2 & D2 & M2 & R2).
    + intros e He. rewrite (frame_pre _ _ F1). apply Hl. right; auto.
    + exists g2, cs2. split; auto. split; auto. split; auto. split; [eapply frameb_trans; eauto|]. split; [|split; [auto|intros k Hk; rewrite R2, R1; auto]].
      intros e [<-|He]; auto. destruct (isdird g2 d) eqn:K; auto. apply M2 in K. congruence.
Qed.
Lemma unlink_tokens_spec : forall l h cs, W h -> chained h (x_toks x) cs -> (forall t, In t l -> In t (x_toks x)) ->
  exists g cs', unlink_tokens l h = Some g /\ W g /\ chained g (x_toks x) cs' /\ frameb h g /\ (forall t d, In t l -> In d (n_pre (h t)) -> isdird g d = false) /\ (forall e, isdird g e = true -> isdird h e = true) /\
    (forall k, ~ In k (x_toks x) -> n_refs (g k) = n_refs (h k)).
Proof.
  induction l as [|t l IH]; intros h cs Hw Hc Hl.
  - exists h, cs. cbn. split; auto. split; auto. split; auto. split; [apply frameb_refl|]. split; [intros t d []|auto].
  - cbn [unlink_tokens]. destruct (unlink_all_spec (n_pre (h t)) h cs t Hw Hc) as (g & cs1 & -> & W1 & C1 & F1 & D1 & M1 & R1); [apply Hl; left; auto|auto|].
    destruct (IH g cs1 W1 C1) as (g2 & cs2 & -> & W2 & C2 & F2 & D2 & M2 & R2).
    + intros e He. apply Hl. right; auto.
    + exists g2, cs2. split; auto. split; auto. split; auto. split; [eapply frameb_trans; eauto|]. split; [|split; [auto|intros k Hk; rewrite R2, R1; auto]].
      intros u d [<-|Hu] Hd.
      * destruct (isdird g2 d) eqn:K; auto. apply M2 in K. rewrite D1 in K; auto.
      * apply (D2 u); auto. rewrite (frame_pre _ _ F1). auto.
Qed.
End Un.

(** ** Stamps and the end *)
(** How often a token occurs in the list of stamps. *)
Definition stamps_of (stamps : list id) (t : id) : nat := count_occ Nat.eq_dec stamps t.


(** Tokens taken off the list while they were stamped: only the stamps hold them. *)
Definition dangling (x : lex) (stamps : list id) (h : heap) (t : id) : Prop :=
  ~ In t (whole h (x_toks x)) /\ n_refs (h t) = stamps_of stamps t /\ n_pre (h t) = [] /\ n_suf (h t) = [].

Lemma rele_all_spec : forall stamps h x, (forall t, In t (x_toks x) -> n_refs (h t) = 1 + stamps_of stamps t) ->
  (forall t, In t stamps -> ~ In t (x_toks x) -> dangling x stamps h t) ->
  exists g, rele_all stamps h = Some g /\ (forall t, In t (x_toks x) -> n_refs (g t) = 1) /\ (forall i, ~ In i (x_toks x) -> ~ In i stamps -> g i = h i) /\
    (forall i, n_pre (g i) = n_pre (h i) /\ n_suf (g i) = n_suf (h i)) /\ (forall t, In t (x_toks x) -> n_live (g t) = n_live (h t)) /\
    (forall t, In t stamps -> ~ In t (x_toks x) -> n_refs (g t) = 0 /\ n_live (g t) = false).
Proof.
  induction stamps as [|s l IH]; intros h x R D.
  - exists h. cbn. split; auto. split; auto. split; auto. split; auto. split; auto. intros t [].
  - cbn [rele_all].
    assert (Cs : stamps_of (s :: l) s = S (stamps_of l s)) by (unfold stamps_of; cbn; destruct (Nat.eq_dec s s); congruence).
    assert (Co : forall t, t <> s -> stamps_of (s :: l) t = stamps_of l t) by (intros t Ht; unfold stamps_of; cbn; destruct (Nat.eq_dec s t); congruence).
    assert (St : exists h1, rele s h = Some h1 /\ (forall i, i <> s -> h1 i = h i) /\ n_pre (h1 s) = n_pre (h s) /\ n_suf (h1 s) = n_suf (h s) /\ n_refs (h1 s) = n_refs (h s) - 1 /\
              (In s (x_toks x) -> n_live (h1 s) = n_live (h s)) /\ (~ In s (x_toks x) -> stamps_of l s = 0 -> n_live (h1 s) = false)).
    { destruct (in_dec Nat.eq_dec s (x_toks x)) as [Hin|Hin].
      - rewrite rele_many by (rewrite R by auto; lia). eexists. split; [reflexivity|]. split; [intros; apply mod_neq; auto|]. rewrite mod_eq. cbn. repeat (split; auto). intros; contradiction.
      - destruct (D s (or_introl eq_refl) Hin) as (D1 & D2 & D3 & D4).
        destruct (rele_last s h D3 D4) as (g & E & G1 & G2 & G3 & G4 & G5 & _); [lia|]. exists g. split; auto. split; auto. rewrite D3, D4. split; auto. split; auto. split; auto.
        split; [intros; contradiction|]. intros _ Z. rewrite G5, D2, Cs, Z. cbn. apply andb_false_r. }
    destruct St as (h1 & -> & M & P1 & P2 & P3 & P4 & P5).
    assert (Wh : whole h1 (x_toks x) = whole h (x_toks x)).
    { apply whole_ext. intros t _. destruct (Nat.eq_dec t s) as [->|N]; [auto|rewrite M; auto]. }
    destruct (IH h1 x) as (g & E & G1 & G2 & G3 & G4 & G5).
    + intros t Ht. destruct (Nat.eq_dec t s) as [->|N]; [rewrite P3, R by auto; lia|]. rewrite M, R, Co by auto. auto.
    + intros t Ht Hn. destruct (D t (or_intror Ht) Hn) as (D1 & D2 & D3 & D4). unfold dangling. rewrite Wh. split; auto.
      destruct (Nat.eq_dec t s) as [->|N]; [rewrite P3, P1, P2, D2, Cs; split; [lia|auto]|]. rewrite M by auto. rewrite Co in D2; auto.
    + exists g. split; auto. split; auto. split; [intros i Hi Hs; rewrite G2; [apply M; intros ->; apply Hs; left; auto|auto|intros K; apply Hs; right; auto]|].
      split; [intros i; destruct (G3 i) as (-> & ->); destruct (Nat.eq_dec i s) as [->|N]; [auto|rewrite M; auto]|].
      split; [intros t Ht; rewrite G4 by auto; destruct (Nat.eq_dec t s) as [->|N]; [auto|rewrite M; auto]|].
      intros t Ht Hn. destruct (in_dec Nat.eq_dec t l) as [Hl|Hl]; [apply G5; auto|]. destruct Ht as [<-|Ht]; [|contradiction].
      assert (Z : stamps_of l s = 0) by (unfold stamps_of; apply count_occ_not_In; auto). rewrite G2 by auto.
      destruct (D s (or_introl eq_refl) Hn) as (_ & D2 & _). rewrite P3, D2, Cs, Z. auto.
Qed.

Lemma release_leaf : forall f p h, n_refs (h p) = 1 -> n_pre (h p) = [] -> n_suf (h p) = [] ->
  exists g, token_rele (S f) p h = Some g /\ (forall i, i <> p -> g i = h i) /\ n_refs (g p) = 0 /\ n_live (g p) = false.
Proof.
  intros f p h H1 H2 H3. cbn [token_rele]. rewrite H1. rewrite mod_eq. cbn [n_pre set_refs]. rewrite H2. rewrite mod_eq. cbn [n_suf set_refs]. rewrite H3.
  eexists. split; [reflexivity|]. split; [intros i Hi; rewrite !mod_neq; auto|]. rewrite !mod_eq. auto.
Qed.

(** Releasing the last reference of a token releases its prefixes and suffixes. *)
Lemma rele_free : forall t h, n_refs (h t) = 1 -> NoDup (n_pre (h t) ++ t :: n_suf (h t)) ->
  (forall p, In p (n_pre (h t) ++ n_suf (h t)) -> n_refs (h p) = 1 /\ n_pre (h p) = [] /\ n_suf (h p) = []) ->
  exists g, rele t h = Some g /\ (forall i, ~ In i (n_pre (h t) ++ t :: n_suf (h t)) -> g i = h i) /\
    (forall i, In i (n_pre (h t) ++ t :: n_suf (h t)) -> n_refs (g i) = 0 /\ n_live (g i) = false).
Proof.
  intros t h Ht Nd Hl. unfold rele.
  assert (Rl : forall l h, NoDup l -> (forall p, In p l -> n_refs (h p) = 1 /\ n_pre (h p) = [] /\ n_suf (h p) = []) ->
    exists g, (fix release l h := match l with [] => Some h | p :: r => do h <- token_rele 1 p h; release r h end) l h = Some g /\
      (forall i, ~ In i l -> g i = h i) /\ (forall i, In i l -> n_refs (g i) = 0 /\ n_live (g i) = false)).
  { clear. induction l as [|p l IH]; intros h N H.
    - exists h. split; auto. split; auto. intros i [].
    - apply NoDup_cons_iff in N. destruct N as (N1 & N2). destruct (H p (or_introl eq_refl)) as (A & B & C). destruct (release_leaf 0 p h A B C) as (h1 & -> & M1 & M2 & M3).
      destruct (IH h1 N2) as (g & -> & G1 & G2).
      + intros q Hq. rewrite M1 by (intros ->; auto). apply H. right; auto.
      + exists g. split; auto. split; [intros i Hi; rewrite G1; [apply M1; intros ->; apply Hi; left; auto|intros K; apply Hi; right; auto]|].
        intros i [<-|Hi]; auto. rewrite G1 by auto. auto. }
  change (token_rele 2 t h) with (match n_refs (h t) with 0 => None | S (S k) => Some (modify h t (set_refs (S k)))
    | 1 => let h := modify h t (set_refs 0) in
           do h <- (fix release l h := match l with [] => Some h | p :: r => do h <- token_rele 1 p h; release r h end) (n_pre (h t)) h;
           do h <- (fix release l h := match l with [] => Some h | p :: r => do h <- token_rele 1 p h; release r h end) (n_suf (h t)) h;
           Some (modify h t (fun n => set_live false (set_pre [] (set_suf [] n)))) end).
  rewrite Ht. cbv zeta. set (h1 := modify h t (set_refs 0)).
  assert (M1 : forall i, i <> t -> h1 i = h i) by (intros; unfold h1; apply mod_neq; auto). assert (M2 : h1 t = set_refs 0 (h t)) by (unfold h1; rewrite mod_eq; auto).
  assert (N1 : NoDup (n_pre (h t))) by (apply nodup_app_l in Nd; auto). assert (N2 := nodup_app_r _ _ Nd). apply NoDup_cons_iff in N2. destruct N2 as (N2 & N3).
  assert (N4 : forall i, In i (n_pre (h t)) -> i <> t /\ ~ In i (n_suf (h t))).
  { intros i Hi. split; [intros ->; eapply (nodup_app_disj _ _ t Nd); auto; left; auto|intros K; eapply (nodup_app_disj _ _ i Nd); auto; right; auto]. }
  rewrite M2. cbn [n_pre set_refs]. destruct (Rl (n_pre (h t)) h1 N1) as (h2 & -> & A1 & A2).
  { intros p Hp. rewrite M1 by apply N4, Hp. apply Hl. apply in_or_app; auto. }
  assert (T2 : h2 t = h1 t) by (apply A1; intros K; apply N4 in K; destruct K; congruence). rewrite T2, M2. cbn [n_suf set_refs].
  destruct (Rl (n_suf (h t)) h2 N3) as (h3 & -> & B1 & B2).
  { intros p Hp. rewrite A1, M1; [apply Hl; apply in_or_app; auto|intros ->; auto|intros K; apply N4 in K; destruct K; auto]. }
  assert (T3 : h3 t = h2 t) by (apply B1; auto).
  eexists. split; [reflexivity|]. split.
  - intros i Hi. assert (i <> t /\ ~ In i (n_pre (h t)) /\ ~ In i (n_suf (h t))) as (I1 & I2 & I3) by (split; [|split]; intros K; apply Hi; apply in_or_app; subst; auto; right; [left|right]; auto).
    rewrite mod_neq, B1, A1, M1; auto.
  - intros i Hi. apply in_app_or in Hi. destruct Hi as [Hi|[<-|Hi]].
    + destruct (N4 i Hi) as (I1 & I2). rewrite mod_neq, B1 by auto. auto.
    + rewrite mod_eq. cbn [n_refs n_live set_live set_pre set_suf]. rewrite T3, T2, M2. auto.
    + assert (i <> t) by (intros ->; auto). rewrite mod_neq by auto. auto.
Qed.

Lemma free_tokens_spec : forall l h, NoDup (whole h l) -> (forall t, In t l -> n_refs (h t) = 1) ->
  (forall t p, In t l -> In p (n_pre (h t) ++ n_suf (h t)) -> n_refs (h p) = 1 /\ n_pre (h p) = [] /\ n_suf (h p) = []) ->
  exists g, free_tokens l h = Some g /\ (forall i, In i (whole h l) -> n_refs (g i) = 0 /\ n_live (g i) = false) /\ (forall i, ~ In i (whole h l) -> g i = h i).
Proof.
  induction l as [|t l IH]; intros h N R Hl.
  - exists h. split; auto. split; auto. intros i [].
  - cbn [free_tokens]. rewrite (R t (or_introl eq_refl)). cbn [Nat.eqb]. rewrite whole_cons in N |- *.
    assert (E : n_pre (h t) ++ t :: n_suf (h t) ++ whole h l = (n_pre (h t) ++ t :: n_suf (h t)) ++ whole h l) by (rewrite <- app_assoc; auto). rewrite E in *. clear E.
    destruct (rele_free t h) as (h1 & -> & A1 & A2).
    { apply R; left; auto. } { apply nodup_app_l in N; auto. } { intros p Hp. eapply Hl; eauto. left; auto. }
    assert (Nl : forall i, In i (whole h l) -> h1 i = h i).
    { intros i Hi. apply A1. intros K. eapply (nodup_app_disj _ _ i N); eauto. }
    assert (Wl : forall u, In u l -> In u (whole h l)) by (intros; apply whole_in; auto).
    assert (Wh : whole h1 l = whole h l) by (apply whole_ext; intros u Hu; rewrite Nl; auto).
    destruct (IH h1) as (g & -> & G1 & G2).
    + rewrite Wh. apply nodup_app_r in N. auto.
    + intros u Hu. rewrite Nl by auto. apply R. right; auto.
    + intros u p Hu Hp. rewrite (Nl u) in Hp by auto.
      assert (Hpw : In p (whole h l)) by (apply in_app_or in Hp; destruct Hp; [eapply whole_pre; eauto|eapply whole_suf; eauto]).
      rewrite (Nl p) by auto. eapply Hl; eauto. right; auto.
    + rewrite Wh in *. exists g. split; auto. split.
      * intros i Hi. apply in_app_or in Hi. destruct (in_dec Nat.eq_dec i (whole h l)) as [K|K]; auto. destruct Hi as [Hi|Hi]; [|contradiction]. rewrite G2 by auto. auto.
      * intros i Hi. rewrite G2, A1; auto; intros K; apply Hi; apply in_or_app; auto.
Qed.

(** ** The state of a formatter between tokenization and shutdown *)
Record life (x : lex) (stamps : list id) (cs : list (list id)) : Prop := {
  li_wfl : wfl (stamps_of stamps) x;
  li_chain : chained (x_heap x) (x_toks x) cs;
  li_leaf : forall t p, In t (x_toks x) -> In p (n_pre (x_heap x t) ++ n_suf (x_heap x t)) -> n_refs (x_heap x p) = 1 /\ n_pre (x_heap x p) = [] /\ n_suf (x_heap x p) = [];
  li_dang : forall t, In t stamps -> ~ In t (x_toks x) -> dangling x stamps (x_heap x) t;
  li_suf : forall t p, In t (x_toks x) -> In p (n_suf (x_heap x t)) -> isdird (x_heap x) p = false }.

Lemma set_heap_id : forall x, set_heap (x_heap x) x = x.
Proof. intros []. auto. Qed.
Lemma ndirs_0 : forall h l, (forall d, In d l -> isdird h d = false) -> ndirs h l = 0.
Proof.
  intros h l H. unfold ndirs. assert (E : filter (isdird h) l = []); [|rewrite E; auto]. induction l as [|d l IH]; auto. cbn. rewrite H by (left; auto). apply IH. intros e He. apply H. right; auto.
Qed.

(** Shutting down: every assertion holds, and nothing is left alive. *)
Lemma free_spec : forall x stamps cs, life x stamps cs ->
  exists g, lexer_free x stamps = Some g /\ (forall i, In i (whole (x_heap x) (x_toks x)) \/ In i stamps -> n_refs (g i) = 0 /\ n_live (g i) = false) /\
  exists f, before_free x stamps = Some f /\ (forall t, In t (x_toks x) -> n_refs (f t) = 1).
Proof.
  intros x stamps cs [L1 L2 L3 L4 L5]. unfold lexer_free, before_free. rewrite <- (set_heap_id x) in L1.
  destruct (unlink_tokens_spec _ x (x_toks x) (x_heap x) cs L1 L2 (fun t H => H)) as (h1 & cs1 & -> & W1 & _ & F1 & D1 & _ & R1).
  pose proof (wl_refs _ _ W1) as Rf. cbn [x_heap set_heap x_toks] in Rf.
  assert (Wh : whole h1 (x_toks x) = whole (x_heap x) (x_toks x)) by (apply whole_ext; intros t _; destruct (F1 t) as (-> & -> & _); auto).
  assert (Rf' : forall t, In t (x_toks x) -> n_refs (h1 t) = 1 + stamps_of stamps t).
  { intros t Ht. rewrite Rf by auto. rewrite ndirs_0; [lia|]. intros d Hd. rewrite (frame_pre _ _ F1) in Hd. apply (D1 t); auto. }
  destruct (rele_all_spec stamps h1 x Rf') as (h2 & E2 & A1 & A2 & A3 & A4 & A5).
  { intros t Ht Hn. destruct (L4 t Ht Hn) as (B1 & B2 & B3 & B4). unfold dangling. rewrite Wh, R1 by auto. destruct (F1 t) as (-> & -> & _). auto. }
  rewrite E2.
  assert (Wh2 : whole h2 (x_toks x) = whole (x_heap x) (x_toks x)) by (rewrite <- Wh; apply whole_ext; intros t _; destruct (A3 t) as (-> & ->); auto).
  pose proof (wl_nodup _ _ W1) as Nd. cbn [x_heap set_heap x_toks] in Nd. rewrite Wh in Nd.
  destruct (free_tokens_spec (x_toks x) h2) as (g & -> & G1 & G2).
  - rewrite Wh2. auto.
  - auto.
  - intros t p Ht Hp. destruct (A3 t) as (P1 & P2). rewrite P1, P2 in Hp. destruct (F1 t) as (Q1 & Q2 & _). rewrite Q1, Q2 in Hp. destruct (L3 t p Ht Hp) as (B1 & B2 & B3).
    destruct (A3 p) as (-> & ->). destruct (F1 p) as (-> & -> & _). split; auto.
    assert (Hpt : ~ In p (x_toks x)).
    { intros K. destruct (whole_disj (x_heap x) (x_toks x) t Nd Ht) as (_ & _ & Z & _). destruct (Z p K) as (Z1 & Z2). apply in_app_or in Hp. destruct Hp; contradiction. }
    assert (Hps : ~ In p stamps).
    { intros K. destruct (L4 p K Hpt) as (Z & _). apply Z. apply in_app_or in Hp. destruct Hp; [eapply whole_pre; eauto|eapply whole_suf; eauto]. }
    rewrite A2, R1 by auto. auto.
  - exists g. split; auto. rewrite Wh2 in *. split; [|eauto].
    intros i Hi. destruct (in_dec Nat.eq_dec i (whole (x_heap x) (x_toks x))) as [K|K]; [apply G1; auto|]. destruct Hi as [Hi|Hi]; [contradiction|].
    rewrite G2 by auto. apply A5; auto. intros J. apply K. apply whole_in; auto.
Qed.

(** Stamping. *)
Lemma stamp_life : forall x stamps cs, life x stamps cs -> (forall t, x_cur x = Some t -> In t (x_toks x)) ->
  life (fst (stamp x stamps)) (snd (stamp x stamps)) cs.
Proof.
  intros x stamps cs L Hc. unfold stamp. destruct (x_cur x) as [b|] eqn:Eb; auto. cbn [fst snd]. specialize (Hc b eq_refl).
  destruct L as [L1 L2 L3 L4 L5]. set (h := token_ref b (x_heap x)).
  assert (M : forall i, i <> b -> h i = x_heap x i) by (intros; apply mod_neq; auto). assert (M2 : h b = set_refs (S (n_refs (x_heap x b))) (x_heap x b)) by (unfold h, token_ref; rewrite mod_eq; auto).
  assert (Fm : frameb (x_heap x) h) by (intros i; destruct (Nat.eq_dec i b) as [->|N]; [rewrite M2; cbn; auto 10|rewrite M; auto 10]).
  assert (Ty : brsame h (x_heap x)) by (intros i; destruct (Nat.eq_dec i b) as [->|N]; [rewrite M2; cbn; auto 10|rewrite M; auto 10]).
  assert (Cb : forall t, stamps_of (b :: stamps) t = (if t =? b then 1 else 0) + stamps_of stamps t).
  { intros t. unfold stamps_of. cbn. destruct (Nat.eq_dec b t), (Nat.eqb_spec t b); subst; auto; congruence. }
  assert (Isd : forall d, isdird h d = isdird (x_heap x) d) by (intros d; unfold isdird; destruct (Ty d) as (-> & _); auto).
  assert (Wh : whole h (x_toks x) = whole (x_heap x) (x_toks x)) by (apply whole_ext; intros t _; destruct (Fm t) as (-> & -> & _); auto).
  constructor; cbn [x_heap set_heap x_toks].
  - destruct L1 as [W1 W2 W3 W4]. constructor; cbn [x_heap set_heap x_toks].
    + rewrite Wh. auto.
    + destruct W2 as (body & e & B1 & B2 & B3). exists body, e. unfold tyof in *. cbn [x_heap set_heap]. split; auto. destruct (Ty e) as (-> & _). split; auto.
      eapply Forall_impl; [|exact B3]. intros t Ht. cbn beta. destruct (Ty t) as (-> & _). auto.
    + intros t d K1 K2 K3. destruct (Fm t) as (K4 & _). rewrite K4 in K2. rewrite Isd in K3. destruct (Ty d) as (_ & _ & _ & ->). auto.
    + intros t Ht. destruct (Fm t) as (-> & _). rewrite (ndirs_same (x_heap x) h) by auto. rewrite Cb. destruct (Nat.eqb_spec t b) as [->|N].
      * rewrite M2. cbn [n_refs set_refs]. rewrite W4 by auto. lia.
      * rewrite M by auto. rewrite W4 by auto. lia.
  - destruct L2 as [C1 C2 C3]. constructor; auto.
    + intros d. rewrite Isd, C2. split; intros ((t & T1 & T2) & T3); (split; [exists t; split; auto; destruct (Fm t) as (Q & _); congruence|auto]).
    + intros c Hcc. destruct (C3 c Hcc) as (S1 & S2). split; [eapply shaped_ext; [|exact S1]|eapply seg_ext; [|exact S2]]; intros d _; destruct (Ty d) as (? & ? & ? & _); auto.
  - intros t p Ht Hp. destruct (Fm t) as (P1 & P2 & _). rewrite P1, P2 in Hp. assert (p <> b).
    { intros ->. destruct (whole_disj (x_heap x) (x_toks x) t (wl_nodup _ _ L1) Ht) as (_ & _ & Z & _). destruct (Z b Hc) as (Z1 & Z2). apply in_app_or in Hp. destruct Hp; contradiction. }
    rewrite M by auto. eauto.
  - intros t [<-|Ht] Hn; [contradiction|]. destruct (L4 t Ht Hn) as (B1 & B2 & B3 & B4). assert (t <> b) by (intros ->; auto). unfold dangling. cbn [x_toks set_heap]. rewrite Wh, M by auto.
    rewrite Cb. destruct (Nat.eqb_spec t b); [contradiction|]. auto.
  - intros t p Ht Hp. rewrite Isd. destruct (Fm t) as (_ & Q & _). rewrite Q in Hp. eauto.
Qed.

(** Unlinking a directive. *)
Lemma unlink_life : forall x stamps cs d t, life x stamps cs -> In t (x_toks x) -> In d (n_pre (x_heap x t)) ->
  exists g cs', branch_unlink d (x_heap x) = Some g /\ life (set_heap g x) stamps cs' /\ isdird g d = false.
Proof.
  intros x stamps cs d t [L1 L2 L3 L4 L5] Ht Hd. pose proof (wl_nodup _ _ L1) as Nd. rewrite <- (set_heap_id x) in L1.
  destruct (unlink_spec _ x (x_heap x) cs d L1 L2) as (g & cs' & E & W1 & C1 & F1 & D1 & M1 & R1); [exists t; auto|].
  exists g, cs'. split; auto. split; auto.
  assert (Wh : whole g (x_toks x) = whole (x_heap x) (x_toks x)) by (apply whole_ext; intros u _; destruct (F1 u) as (-> & -> & _); auto).
  constructor; cbn [x_heap set_heap x_toks]; auto.
  - intros u p Hu Hp. destruct (F1 u) as (P1 & P2 & _). rewrite P1, P2 in Hp. destruct (F1 p) as (-> & -> & _). rewrite R1; eauto.
    intros K. destruct (whole_disj (x_heap x) (x_toks x) u Nd Hu) as (_ & _ & Z & _). destruct (Z p K) as (Z1 & Z2). apply in_app_or in Hp. destruct Hp; contradiction.
  - intros u Hu Hn. destruct (L4 u Hu Hn) as (B1 & B2 & B3 & B4). unfold dangling. cbn [x_toks set_heap]. rewrite Wh, R1 by auto. destruct (F1 u) as (-> & -> & _). auto.
  - intros u p Hu Hp. destruct (F1 u) as (_ & Q & _). rewrite Q in Hp. destruct (isdird g p) eqn:K; auto. apply M1 in K. rewrite (L5 u) in K; auto.
Qed.

(** Removing a token. *)
Lemma remove_life : forall x stamps cs a tk nx b, life x stamps cs -> x_toks x = a ++ tk :: nx :: b ->
  exists y, remove tk x = Some y /\ life y stamps cs.
Proof.
  intros x stamps cs a tk nx b [L1 L2 L3 L4 L5] Et. destruct (remove_spec _ a tk nx b x L1 Et) as (y & E & R & V1 & V2 & V3 & V4).
  assert (Ht := whole_toks _ _ (wl_nodup _ _ L1)). pose proof (removed_whole _ _ _ _ _ _ Et Ht R) as Hp.
  set (pv := match rev a with [] => nx | pv :: _ => pv end) in *.
  exists y. split; auto.
  assert (Hin : forall t, In t (x_toks y) <-> In t (x_toks x) /\ t <> tk).
  { intros t. rewrite (rm_toks _ _ _ _ _ _ _ R), Et. rewrite Et in Ht. destruct (nodup_split _ _ _ Ht) as (N1 & N2). split.
    - intros K. split; [apply in_app_or in K; apply in_or_app; destruct K; auto; right; right; auto|]. intros ->. apply in_app_or in K. destruct K; auto.
    - intros (K & N). apply in_app_or in K. apply in_or_app. destruct K as [K|[K|K]]; auto. congruence. }
  assert (Hty : forall i, n_type (x_heap y i) = n_type (x_heap x i)) by (intros i; apply (rm_text _ _ _ _ _ _ _ R i)).
  assert (Hnx : In nx (x_toks x) /\ nx <> tk).
  { rewrite Et in Ht |- *. split; [apply in_or_app; right; right; left; auto|]. intros ->. destruct (nodup_split _ _ _ Ht) as (_ & N2). apply N2; left; auto. }
  assert (Htk : In tk (x_toks x)) by (rewrite Et; apply in_or_app; right; left; auto).
  assert (Hpv : In pv (x_toks x)).
  { unfold pv. destruct (rev a) as [|q r] eqn:Er; [apply Hnx|]. rewrite Et. apply in_or_app. left. apply in_rev. rewrite Er. left; auto. }
  assert (Pres : forall d, (exists t, In t (x_toks y) /\ In d (n_pre (x_heap y t))) <-> (exists t, In t (x_toks x) /\ In d (n_pre (x_heap x t)))).
  { intros d. split; intros (t & T1 & T2).
    - apply Hin in T1. destruct T1 as (T1 & T3). destruct (Nat.eq_dec t nx) as [->|N].
      + rewrite (rm_pre_nx _ _ _ _ _ _ _ R) in T2. apply in_app_or in T2. destruct T2; eauto.
      + rewrite (rm_pre _ _ _ _ _ _ _ R) in T2 by auto. eauto.
    - destruct (Nat.eq_dec t tk) as [->|N1].
      + exists nx. split; [apply Hin; auto|]. rewrite (rm_pre_nx _ _ _ _ _ _ _ R). apply in_or_app; auto.
      + exists t. split; [apply Hin; auto|]. destruct (Nat.eq_dec t nx) as [->|N2]; [rewrite (rm_pre_nx _ _ _ _ _ _ _ R); apply in_or_app; auto|].
        rewrite (rm_pre _ _ _ _ _ _ _ R); auto. }
  constructor.
  - eapply removed_wfl; eauto.
  - destruct L2 as [C1 C2 C3]. constructor; auto.
    + intros d. rewrite Pres, C2. unfold isdird. rewrite Hty. tauto.
    + intros c Hc. destruct (C3 c Hc) as (S1 & S2). split; [eapply shaped_ext; [|exact S1]; auto|eapply seg_ext; [|exact S2]; intros d _; apply (rm_links _ _ _ _ _ _ _ R)].
  - intros t p T1 T2. assert (Hold : exists u, In u (x_toks x) /\ In p (n_pre (x_heap x u) ++ n_suf (x_heap x u))).
    { apply Hin in T1. destruct T1 as (T1 & T3). apply in_app_or in T2. destruct T2 as [T2|T2].
      - destruct (proj1 (Pres p)) as (u & U1 & U2); [exists t; split; auto; apply Hin; auto|]. exists u. split; auto. apply in_or_app; auto.
      - destruct (Nat.eq_dec t pv) as [->|N].
        + rewrite (rm_suf_pv _ _ _ _ _ _ _ R) in T2. apply in_app_or in T2. destruct T2; [exists pv|exists tk]; (split; [auto|apply in_or_app; auto]).
        + rewrite (rm_suf _ _ _ _ _ _ _ R) in T2 by auto. exists t. split; auto. apply in_or_app; auto. }
    destruct Hold as (u & U1 & U2). destruct (L3 u p U1 U2) as (B1 & B2 & B3).
    assert (Hpt : forall q, In q (x_toks x) -> p <> q).
    { intros q Hq ->. destruct (whole_disj (x_heap x) (x_toks x) u (wl_nodup _ _ L1) U1) as (_ & _ & Z & _). destruct (Z q Hq) as (Z1 & Z2). apply in_app_or in U2. destruct U2; contradiction. }
    rewrite (rm_refs _ _ _ _ _ _ _ R), (rm_pre _ _ _ _ _ _ _ R), (rm_suf _ _ _ _ _ _ _ R); auto; apply Hpt; auto; apply Hnx.
  - intros t T1 T2. destruct (Nat.eq_dec t tk) as [->|N].
    + split; [|auto]. assert (N1 : NoDup (tk :: whole (x_heap y) (x_toks y))) by (eapply Permutation_NoDup; [exact Hp|apply (wl_nodup _ _ L1)]). apply NoDup_cons_iff in N1. apply N1.
    + assert (Hn : ~ In t (x_toks x)) by (intros K; apply T2; apply Hin; auto). destruct (L4 t T1 Hn) as (B1 & B2 & B3 & B4).
      split; [intros K; apply B1; eapply Permutation_in; [symmetry; exact Hp|right; auto]|].
      assert (t <> nx /\ t <> pv) as (N1 & N2) by (split; intros ->; auto; apply Hn; apply Hnx).
      rewrite (rm_refs _ _ _ _ _ _ _ R), (rm_pre _ _ _ _ _ _ _ R), (rm_suf _ _ _ _ _ _ _ R); auto.
  - intros t p T1 T2. unfold isdird. rewrite Hty. apply Hin in T1. destruct T1 as (T1 & T3). destruct (Nat.eq_dec t pv) as [->|N].
    + rewrite (rm_suf_pv _ _ _ _ _ _ _ R) in T2. apply in_app_or in T2. destruct T2; [apply (L5 pv)|apply (L5 tk)]; auto.
    + rewrite (rm_suf _ _ _ _ _ _ _ R) in T2 by auto. apply (L5 t); auto.
Qed.

(** Dropping a prefix that is no branch, or a suffix. *)
Lemma del_in : forall p l e, NoDup l -> (In e (del p l) <-> In e l /\ e <> p).
Proof.
  intros p l e N. destruct (in_dec Nat.eq_dec p l) as [Hi|Hi].
  - apply in_split in Hi. destruct Hi as (a & b & ->). destruct (nodup_split _ _ _ N) as (N1 & N2). rewrite del_split by auto. rewrite !in_app_iff. cbn [In]. split.
    + intros [K|K]; (split; [auto|intros ->; auto]).
    + intros ([K|[K|K]] & J); auto. congruence.
  - assert (E : del p l = l). { clear N. induction l as [|q l IH]; auto. cbn [del]. destruct (Nat.eqb_spec q p) as [->|K]; [exfalso; apply Hi; left; auto|]. f_equal. apply IH. intros J. apply Hi; right; auto. }
    rewrite E. split; [|tauto]. intros K. split; auto. intros ->. auto.
Qed.
Lemma del_perm : forall p l, NoDup l -> In p l -> Permutation l (p :: del p l).
Proof.
  intros p l N Hi. apply in_split in Hi. destruct Hi as (a & b & ->). destruct (nodup_split _ _ _ N) as (N1 & N2). rewrite del_split by auto. permc.
Qed.
Lemma filter_perm : forall (f : id -> bool) a b, Permutation a b -> Permutation (filter f a) (filter f b).
Proof.
  intros f a b P. induction P; cbn; auto.
  - destruct (f x); auto.
  - destruct (f x), (f y); auto. apply perm_swap.
  - etransitivity; eauto.
Qed.
Lemma whole_split : forall h a t b, whole h (a ++ t :: b) = whole h a ++ (n_pre (h t) ++ t :: n_suf (h t)) ++ whole h b.
Proof. intros. rewrite whole_app, whole_cons, <- !app_assoc. auto. Qed.

Lemma drop_life : forall x stamps cs tk p h1, life x stamps cs -> In tk (x_toks x) -> isdird (x_heap x) p = false ->
  (forall i, i <> tk -> h1 i = x_heap x i) ->
  (In p (n_pre (x_heap x tk)) /\ h1 tk = set_pre (del p (n_pre (x_heap x tk))) (x_heap x tk) \/
   In p (n_suf (x_heap x tk)) /\ h1 tk = set_suf (del p (n_suf (x_heap x tk))) (x_heap x tk)) ->
  exists g, rele p h1 = Some g /\ life (set_heap g x) stamps cs /\ (forall i, i <> p -> g i = h1 i) /\ n_refs (g p) = 0 /\ n_live (g p) = false.
Proof.
  intros x stamps cs tk p h1 [L1 L2 L3 L4 L5] Ht Hd M Hp. set (h := x_heap x) in *. pose proof (wl_nodup _ _ L1) as Nd. fold h in Nd.
  destruct (whole_disj h (x_toks x) tk Nd Ht) as (Np & Ns & Z & _).
  assert (Hpin : In p (n_pre (h tk) ++ n_suf (h tk))) by (apply in_or_app; tauto).
  destruct (L3 tk p Ht Hpin) as (B1 & B2 & B3).
  assert (Hpt : ~ In p (x_toks x)) by (intros K; destruct (Z p K) as (Z1 & Z2); tauto).
  assert (Npt : p <> tk) by (intros ->; auto).
  unfold rele. destruct (release_leaf 1 p h1) as (g & E & G1 & G2 & G3); try (rewrite M by auto; auto).
  exists g. split; [exact E|]. split; [|auto].
  assert (Gtk : g tk = h1 tk) by auto.
  assert (Gt : forall t, In t (x_toks x) -> t <> tk -> g t = h t) by (intros t T1 T2; rewrite G1 by (intros ->; auto); apply M; auto).
  assert (Soft : n_type (g tk) = n_type (h tk) /\ n_parent (g tk) = n_parent (h tk) /\ n_refs (g tk) = n_refs (h tk) /\ n_pv (g tk) = n_pv (h tk) /\ n_nx (g tk) = n_nx (h tk)).
  { rewrite Gtk. destruct Hp as [(_ & ->)|(_ & ->)]; cbn; auto. }
  assert (Go : forall i, i <> tk -> i <> p -> g i = h i) by (intros i I1 I2; rewrite G1 by auto; apply M; auto).
  assert (Gp : n_type (g p) = n_type (h p)).
  { cbn [token_rele] in E. rewrite M in E by auto. rewrite B1, mod_eq in E. cbn [n_pre set_refs] in E. rewrite M in E by auto. rewrite B2, mod_eq in E. cbn [n_suf set_refs] in E. rewrite M in E by auto. rewrite B3 in E.
    injection E as <-. rewrite mod_eq. cbn [n_type set_live set_pre set_suf]. rewrite mod_eq. cbn. rewrite M; auto. }
  assert (Gty : forall i, n_type (g i) = n_type (h i)).
  { intros i. destruct (Nat.eq_dec i p) as [->|N1]; auto. destruct (Nat.eq_dec i tk) as [->|N2]; [apply Soft|rewrite Go; auto]. }
  assert (Isd : forall d, isdird g d = isdird h d) by (intros; unfold isdird; rewrite Gty; auto).
  assert (Pre : forall t d, In t (x_toks x) -> (In d (n_pre (g t)) <-> In d (n_pre (h t)) /\ d <> p)).
  { intros t d T1. destruct (Nat.eq_dec t tk) as [->|N2].
    - rewrite Gtk. destruct Hp as [(P1 & ->)|(P1 & ->)]; cbn [n_pre set_pre set_suf]; [apply del_in; auto|]. split; [|tauto]. intros K. split; auto. intros ->.
      apply (in_split) in Ht. destruct Ht as (a & b & Eab). rewrite Eab in Nd. rewrite whole_split in Nd. apply nodup_app_r, nodup_app_l in Nd. eapply (nodup_app_disj _ _ p Nd); auto. right; auto.
    - rewrite Gt by auto. split; [|tauto]. intros K. split; auto. intros ->. destruct Hp as [(P1 & _)|(P1 & _)].
      + apply N2. rewrite <- (owner_spec h (x_toks x) t p Nd T1 K). apply owner_spec; auto.
      + apply in_split in T1. destruct T1 as (a & b & Eab). rewrite Eab in Nd, Ht. rewrite whole_split in Nd.
        apply in_app_or in Ht. destruct Ht as [Ht|[Ht|Ht]]; [|congruence|].
        * eapply (nodup_app_disj _ _ p Nd); [eapply whole_suf; eauto|]. apply in_or_app; left. apply in_or_app; auto.
        * apply nodup_app_r in Nd. eapply (nodup_app_disj _ _ p Nd); [apply in_or_app; left; exact K|eapply whole_suf; eauto]. }
  assert (Wp : Permutation (whole h (x_toks x)) (p :: whole g (x_toks x))).
  { assert (Ht2 := whole_toks _ _ Nd). apply in_split in Ht. destruct Ht as (a & b & Eab). rewrite Eab in *. destruct (nodup_split _ _ _ Ht2) as (N1 & N2). rewrite !whole_split.
    rewrite (whole_ext h g a), (whole_ext h g b).
    - rewrite Gtk. destruct Hp as [(P1 & ->)|(P1 & ->)]; cbn [n_pre n_suf set_pre set_suf]; [rewrite (del_perm p (n_pre (h tk))) at 1 by auto|rewrite (del_perm p (n_suf (h tk))) at 1 by auto]; permc.
    - intros t T1. rewrite Gt; auto; [apply in_or_app; right; right; auto|intros ->; auto].
    - intros t T1. rewrite Gt; auto; [apply in_or_app; auto|intros ->; auto]. }
  constructor; cbn [x_heap set_heap x_toks].
  - destruct L1 as [W1 W2 W3 W4]. constructor; cbn [x_heap set_heap x_toks].
    + assert (N1 : NoDup (p :: whole g (x_toks x))) by (eapply Permutation_NoDup; eauto). apply NoDup_cons_iff in N1. apply N1.
    + destruct W2 as (body & e & E1 & E2 & E3). exists body, e. unfold tyof in *. cbn [x_heap set_heap]. rewrite Gty. split; auto. split; auto.
      eapply Forall_impl; [|exact E3]. intros t K. cbn beta. rewrite Gty. auto.
    + intros t d K1 K2 K3. apply Pre in K2; auto. destruct K2 as (K2 & K4). rewrite Isd in K3. destruct (Nat.eq_dec d tk) as [->|N2].
      * exfalso. destruct (whole_disj h (x_toks x) t Nd K1) as (_ & _ & Z2 & _). destruct (Z2 tk Ht); contradiction.
      * rewrite Go by auto. apply W3; auto.
    + intros t K. destruct (Nat.eq_dec t tk) as [->|N2].
      * destruct Soft as (_ & _ & -> & _). unfold h. rewrite W4 by auto. fold h. f_equal. f_equal. rewrite (ndirs_same h g _ (fun d _ => Isd d)). rewrite Gtk.
        destruct Hp as [(P1 & ->)|(P1 & ->)]; cbn [n_pre set_pre set_suf]; auto. unfold ndirs.
        assert (Pq : Permutation (filter (isdird h) (n_pre (h tk))) (filter (isdird h) (p :: del p (n_pre (h tk))))) by (apply filter_perm; apply del_perm; auto).
        apply Permutation_length in Pq. cbn [filter] in Pq. rewrite Hd in Pq. auto.
      * rewrite Gt by auto. unfold h. rewrite W4 by auto. fold h. rewrite (ndirs_same h g); auto.
  - destruct L2 as [C1 C2 C3]. fold h in C2, C3. constructor; auto.
    + intros d. rewrite Isd, C2. split; intros ((t & T1 & T2) & T3).
      * split; auto. exists t. split; auto. apply Pre; auto. split; auto. intros ->. congruence.
      * split; auto. exists t. split; auto. apply Pre in T2; tauto.
    + intros c Hc. destruct (C3 c Hc) as (S1 & S2). split; [eapply shaped_ext; [|exact S1]; auto|]. eapply seg_ext; [|exact S2]. intros d Hdc.
      assert (isdird h d = true) by (apply C2; apply in_concat; eauto). assert (d <> p) by congruence.
      destruct (Nat.eq_dec d tk) as [->|N2]; [tauto|]. rewrite Go; auto.
  - intros t q T1 T2. assert (Hq : q <> p /\ In q (n_pre (h t) ++ n_suf (h t))).
    { assert (N1 : NoDup (p :: whole g (x_toks x))) by (eapply Permutation_NoDup; eauto). apply NoDup_cons_iff in N1. destruct N1 as (N1 & _).
      assert (In q (whole g (x_toks x))) by (apply in_app_or in T2; destruct T2; [eapply whole_pre; eauto|eapply whole_suf; eauto]). split; [intros ->; auto|].
      destruct (Nat.eq_dec t tk) as [->|N2]; [|rewrite Gt in T2; auto]. rewrite Gtk in T2. apply in_app_or in T2. apply in_or_app.
      destruct Hp as [(P1 & Q)|(P1 & Q)]; rewrite Q in T2; cbn [n_pre n_suf set_pre set_suf] in T2; destruct T2 as [T2|T2]; auto; apply del_in in T2; tauto. }
    destruct Hq as (Q1 & Q2). destruct (L3 t q T1 Q2) as (R1 & R2 & R3). rewrite Go; auto. intros ->.
    destruct (whole_disj h (x_toks x) t Nd T1) as (_ & _ & Z2 & _). destruct (Z2 tk Ht). apply in_app_or in Q2. tauto.
  - intros t T1 T2. destruct (L4 t T1 T2) as (D1 & D2 & D3 & D4). fold h in D1, D2, D3, D4.
    assert (t <> tk) by (intros ->; auto). assert (t <> p). { intros ->. apply D1. eapply Permutation_in; [symmetry; exact Wp|left; auto]. }
    unfold dangling. cbn [x_toks set_heap]. rewrite Go by auto. split; auto. intros K. apply D1. eapply Permutation_in; [symmetry; exact Wp|right; auto].
  - intros t q T1 T2. rewrite Isd. destruct (Nat.eq_dec t tk) as [->|N2]; [|rewrite Gt in T2 by auto; apply (L5 t); auto]. rewrite Gtk in T2.
    destruct Hp as [(P1 & Q)|(P1 & Q)]; rewrite Q in T2; cbn [n_suf set_pre set_suf] in T2; [|apply del_in in T2; auto]; apply (L5 tk); tauto.
Qed.

Lemma remove_prefixes_life : forall l x stamps cs tk, life x stamps cs -> In tk (x_toks x) -> n_pre (x_heap x tk) = l ->
  exists g cs', remove_prefixes l tk (x_heap x) = Some g /\ life (set_heap g x) stamps cs' /\ n_pre (g tk) = [] /\ n_suf (g tk) = n_suf (x_heap x tk) /\
    (forall t, In t (x_toks x) -> t <> tk -> n_pre (g t) = n_pre (x_heap x t) /\ n_suf (g t) = n_suf (x_heap x t)).
Proof.
  induction l as [|p l IH]; intros x stamps cs tk L Ht El.
  - exists (x_heap x), cs. rewrite set_heap_id. cbn. auto 10.
  - cbn [remove_prefixes]. assert (Hp : In p (n_pre (x_heap x tk))) by (rewrite El; left; auto).
    pose proof (wl_nodup _ _ (li_wfl _ _ _ L)) as Nd.
    assert (Npt : p <> tk). { intros ->. destruct (whole_disj _ _ tk Nd Ht) as (_ & _ & Z & _). destruct (Z tk Ht); contradiction. }
    destruct (unlink_life x stamps cs p tk L Ht Hp) as (h1 & cs1 & E1 & L1 & D1). rewrite E1.
    assert (F1 : frameb (x_heap x) h1).
    { destruct L as [W C _ _ _]. rewrite <- (set_heap_id x) in W. destruct (unlink_spec _ x (x_heap x) cs p W C) as (g' & ? & E' & _ & _ & F' & _); [exists tk; auto|]. assert (g' = h1) by congruence. subst g'. exact F'. }
    unfold drop_prefix. set (h2 := modify h1 tk _).
    destruct (drop_life (set_heap h1 x) stamps cs1 tk p h2 L1) as (h3 & E3 & L3 & G3 & _); cbn [x_heap set_heap x_toks] in *; auto.
    { intros i Hi. unfold h2. rewrite mod_neq; auto. }
    { left. destruct (F1 tk) as (Q & _). rewrite Q. split; auto. unfold h2. rewrite mod_eq. rewrite Q. auto. }
    rewrite E3. change (set_heap h3 (set_heap h1 x)) with (set_heap h3 x) in L3.
    assert (Q2 : n_pre (h3 tk) = l /\ n_suf (h3 tk) = n_suf (x_heap x tk)).
    { rewrite G3 by auto. unfold h2. rewrite mod_eq. cbn. destruct (F1 tk) as (Q & Q' & _). rewrite Q, Q', El. cbn [del]. rewrite Nat.eqb_refl. auto. }
    destruct (IH (set_heap h3 x) stamps cs1 tk L3 Ht) as (g & cs2 & E4 & L4 & P4 & S4 & O4); [apply Q2|]. cbn [x_heap set_heap x_toks] in *.
    exists g, cs2. rewrite E4. split; auto. change (set_heap g (set_heap h3 x)) with (set_heap g x) in L4. split; auto. split; auto. destruct Q2 as (_ & Q2). split; [congruence|].
    intros t T1 T2. destruct (O4 t T1 T2) as (-> & ->). assert (t <> p). { intros ->. destruct (whole_disj _ _ tk Nd Ht) as (_ & _ & Z & _). destruct (Z p T1); contradiction. }
    rewrite G3 by auto. unfold h2. rewrite mod_neq by auto. destruct (F1 t) as (-> & -> & _). auto.
Qed.
Lemma remove_suffixes_life : forall l x stamps cs tk, life x stamps cs -> In tk (x_toks x) -> n_suf (x_heap x tk) = l ->
  (forall p, In p l -> isdird (x_heap x) p = false) ->
  exists g, remove_suffixes l tk (x_heap x) = Some g /\ life (set_heap g x) stamps cs.
Proof.
  induction l as [|p l IH]; intros x stamps cs tk L Ht El Hl.
  - exists (x_heap x). rewrite set_heap_id. cbn. auto.
  - cbn [remove_suffixes]. assert (Hp : In p (n_suf (x_heap x tk))) by (rewrite El; left; auto). unfold drop_suffix. set (h2 := modify (x_heap x) tk _).
    pose proof (wl_nodup _ _ (li_wfl _ _ _ L)) as Nd.
    assert (Npt : p <> tk). { intros ->. destruct (whole_disj _ _ tk Nd Ht) as (_ & _ & Z & _). destruct (Z tk Ht); contradiction. }
    destruct (drop_life x stamps cs tk p h2 L Ht) as (h3 & E3 & L3 & G3 & G4 & _).
    { apply Hl; left; auto. } { intros i Hi. unfold h2. rewrite mod_neq; auto. } { right. split; auto. unfold h2. rewrite mod_eq. auto. }
    rewrite E3. destruct (IH (set_heap h3 x) stamps cs tk L3 Ht) as (g & E4 & L4).
    + cbn [x_heap set_heap]. rewrite G3 by auto. unfold h2. rewrite mod_eq. cbn [n_suf set_suf]. rewrite El. cbn [del]. rewrite Nat.eqb_refl. auto.
    + intros q Hq. cbn [x_heap set_heap]. assert (q <> p).
      { intros ->. destruct (whole_disj _ _ tk Nd Ht) as (_ & Ns & _). rewrite El in Ns. apply NoDup_cons_iff in Ns. tauto. }
      unfold isdird. rewrite G3 by auto. unfold h2, modify, upd. destruct (q =? tk) eqn:K; cbn; [apply Nat.eqb_eq in K; subst q|apply (Hl q); right; auto].
      exfalso. destruct (whole_disj _ _ tk Nd Ht) as (_ & _ & Z & _). destruct (Z tk Ht) as (_ & Z2). apply Z2. rewrite El. right; auto.
    + exists g. split; auto.
Qed.

(** clang.c remove_token: with all prefixes and suffixes. *)
Lemma remove_token_life : forall x stamps cs a tk nx b, life x stamps cs -> x_toks x = a ++ tk :: nx :: b ->
  exists y cs', remove_token tk x = Some y /\ life y stamps cs' /\ x_toks y = a ++ nx :: b.
Proof.
  intros x stamps cs a tk nx b L Et. assert (Ht : In tk (x_toks x)) by (rewrite Et; apply in_or_app; right; left; auto). unfold remove_token.
  destruct (remove_prefixes_life _ x stamps cs tk L Ht eq_refl) as (h1 & cs1 & -> & L1 & P1 & S1 & _).
  destruct (remove_suffixes_life _ (set_heap h1 x) stamps cs1 tk L1 Ht eq_refl) as (h2 & E2 & L2).
  - intros p Hp. apply (li_suf _ _ _ L1 tk); auto.
  - cbn [x_heap set_heap] in E2. rewrite E2. change (set_heap h2 (set_heap h1 x)) with (set_heap h2 x) in L2.
    destruct (remove_life (set_heap h2 x) stamps cs1 a tk nx b L2 Et) as (y & E3 & L3). exists y, cs1. split; auto. split; auto.
    destruct (remove_spec _ a tk nx b _ (li_wfl _ _ _ L2) Et) as (y' & E4 & R & _). assert (y' = y) by congruence. subst y'. apply (rm_toks _ _ _ _ _ _ _ R).
Qed.

(** ** The start: after tokenization *)
Definition fresh (x : lex) : Prop := unlinked x /\
  (exists body e, x_toks x = body ++ [e] /\ tyof x e = T_EOF /\ Forall (fun t => tyof x t <> T_EOF) body) /\
  (forall t, In t (x_toks x) -> n_refs (x_heap x t) = 1) /\
  (forall t p, In t (x_toks x) -> In p (n_pre (x_heap x t) ++ n_suf (x_heap x t)) -> n_refs (x_heap x p) = 1 /\ n_pre (x_heap x p) = [] /\ n_suf (x_heap x p) = []) /\
  (forall t p, In t (x_toks x) -> In p (n_suf (x_heap x t)) -> isdir (n_type (x_heap x p)) = false).

(** The chains of a parse have the shape of conditionals and cover the directives. *)
Lemma grammar_shape : forall K,
  (forall b cs, bal K b cs -> Permutation b (concat cs) /\ forall c, In c cs -> exists i m e, c = i :: m ++ [e] /\ K i = KIf /\ Forall (fun d => K d = KElse) m /\ K e = KEnd) /\
  (forall g c cs, grp K g c cs -> Permutation g (c ++ concat cs) /\ (exists i m, c = i :: m /\ K i = KIf /\ Forall (fun d => K d = KElse) m) /\
     forall c, In c cs -> exists i m e, c = i :: m ++ [e] /\ K i = KIf /\ Forall (fun d => K d = KElse) m /\ K e = KEnd).
Proof.
  intros K. apply bal_grp_ind.
  - split; auto. intros c [].
  - intros b cs g c cs' e _ (P1 & S1) _ (P2 & (i & m & -> & K1 & K2) & S2) He. split.
    + rewrite !concat_app. cbn [concat]. rewrite P1, P2. permc.
    + intros c Hc. apply in_app_or in Hc. destruct Hc as [Hc|Hc]; auto. apply in_app_or in Hc. destruct Hc as [Hc|[<-|[]]]; auto. exists i, m, e. auto.
  - intros d b cs Hd _ (P1 & S1). split; [cbn; rewrite P1; auto|]. split; auto. exists d, []. auto.
  - intros g c cs e b cs' _ (P1 & (i & m & -> & K1 & K2) & S1) He _ (P2 & S2). split; [|split].
    + rewrite concat_app, P1, P2. permc.
    + exists i, (m ++ [e]). split; auto. split; auto. apply Forall_app; auto.
    + intros c Hc. apply in_app_or in Hc. destruct Hc; auto.
Qed.
Lemma file_shape : forall K ds cs un, file K ds cs un -> Permutation ds (concat cs ++ un) /\
  forall c, In c cs -> exists i m e, c = i :: m ++ [e] /\ K i = KIf /\ Forall (fun d => K d = KElse) m /\ K e = KEnd.
Proof.
  intros K ds cs un (a & o & cs1 & cs2 & s & os & -> & Hs & Ho & -> & ->). destruct (grammar_shape K) as (B & G).
  assert (A1 : Permutation a (concat cs1 ++ s) /\ forall c, In c cs1 -> exists i m e, c = i :: m ++ [e] /\ K i = KIf /\ Forall (fun d => K d = KElse) m /\ K e = KEnd).
  { clear Ho. induction Hs as [b cs Hb|a cs s e b cs' Hs IH He Hb].
    - rewrite app_nil_r. apply B; auto.
    - destruct IH as (P1 & S1). destruct (B _ _ Hb) as (P2 & S2). split; [rewrite concat_app, P1, P2; permc|]. intros c Hc. apply in_app_or in Hc. destruct Hc; auto. }
  assert (A2 : Permutation o (concat cs2 ++ concat os) /\ forall c, In c cs2 -> exists i m e, c = i :: m ++ [e] /\ K i = KIf /\ Forall (fun d => K d = KElse) m /\ K e = KEnd).
  { clear Hs. induction Ho as [|a' cs os g c cs' Ho IH Hg]; [split; auto; intros c []|].
    destruct IH as (P1 & S1). destruct (G _ _ _ Hg) as (P2 & _ & S2). split; [rewrite !concat_app, P1, P2; cbn [concat]; rewrite app_nil_r; permc|]. intros c0 Hc. apply in_app_or in Hc. destruct Hc; auto. }
  destruct A1 as (P1 & S1), A2 as (P2 & S2). split; [rewrite concat_app, P1, P2; permc|]. intros c Hc. apply in_app_or in Hc. destruct Hc; auto.
Qed.
Lemma linked_seg : forall h own c, linked h own c -> seg h None c None.
Proof.
  intros h own c L. assert (X : forall b a, c = a ++ b -> seg h (hd_error (rev a)) b None).
  { induction b as [|d b IH]; intros a E; cbn; auto. destruct (L a d b E) as (A & B & _). split; auto. split; [rewrite B; destruct b; auto|].
    specialize (IH (a ++ [d])). rewrite rev_app_distr in IH. cbn in IH. apply IH. rewrite <- app_assoc. auto. }
  apply (X c []). auto.
Qed.

Lemma start_life : forall x, fresh x -> exists y cs, tokenize_branches x = Some y /\ life y [] cs /\ x_toks y = x_toks x /\ x_cur y = x_cur x /\ whole (x_heap y) (x_toks y) = whole (x_heap x) (x_toks x).
Proof.
  intros x (U & Eo & R1 & Lf & Sf). set (K := fun d => kind_of (n_type (x_heap x d))).
  assert (Kd : forall d, In d (directives x) <-> (exists t, In t (x_toks x) /\ In d (n_pre (x_heap x t))) /\ isdird (x_heap x) d = true).
  { intros d. unfold directives. rewrite filter_In, in_flat_map. unfold isdird. destruct (isdir (n_type (x_heap x d))) eqn:E.
    - assert (kind_of (n_type (x_heap x d)) <> KNone) by (intros Q; apply kind_isdir in Q; congruence). destruct (kind_of (n_type (x_heap x d))); tauto || congruence.
    - apply kind_isdir in E. rewrite E. split; intros (_ & Q); discriminate. }
  destruct (file_exists K (directives x)) as (cs & un & Hf).
  { intros d Hd. apply Kd in Hd. destruct Hd as (_ & Hd). unfold K. intros Q. apply kind_isdir in Q. unfold isdird in Hd. congruence. }
  destruct (tokenize_spec x cs un U Hf) as (y & E & Y1 & Y2 & Y3 & Y4 & Y5 & Y6 & Y7 & Y8 & Y9 & Y10 & Y11 & Y12 & Y13 & Y14).
  destruct (file_shape K _ _ _ Hf) as (P1 & S1).
  assert (Ex : forall d, In d (directives x) <-> In d (concat cs ++ un)) by (intros; split; apply Permutation_in; auto; symmetry; auto).
  assert (Isd : forall d, isdird (x_heap y) d = true <-> isdird (x_heap x) d = true /\ ~ In d un).
  { intros d. unfold isdird. destruct (in_dec Nat.eq_dec d un) as [J|J].
    - destruct (Y7 d J) as (-> & _). split; [discriminate|tauto].
    - rewrite Y8 by auto. tauto. }
  assert (Dis : forall d, In d (concat cs) -> ~ In d un) by (intros d D1 D2; eapply (nodup_app_disj _ _ d Y5); eauto).
  assert (Cd : forall d, In d (concat cs) <-> (exists t, In t (x_toks x) /\ In d (n_pre (x_heap x t))) /\ isdird (x_heap y) d = true).
  { intros d. rewrite Isd. split.
    - intros D. assert (D2 : In d (directives x)) by (apply Ex; apply in_or_app; auto). apply Kd in D2. destruct D2. split; auto.
    - intros (D1 & D2 & D3). assert (D4 : In d (directives x)) by (apply Kd; auto). apply Ex in D4. apply in_app_or in D4. destruct D4; auto; contradiction. }
  assert (Wh : whole (x_heap y) (x_toks x) = whole (x_heap x) (x_toks x)) by (apply whole_ext; intros t _; destruct (Y10 t) as (-> & -> & _); auto).
  assert (Ntok : forall t d, In t (x_toks x) -> In d (n_pre (x_heap x t) ++ n_suf (x_heap x t)) -> ~ In d (x_toks x)).
  { intros t d T1 T2 T3. destruct (whole_disj _ _ t (ul_nodup _ U) T1) as (_ & _ & Z & _). destruct (Z d T3). apply in_app_or in T2. tauto. }
  assert (Nun : forall t, In t (x_toks x) -> ~ In t un).
  { intros t T1 T2. assert (T3 : In t (concat cs ++ un)) by (apply in_or_app; auto). apply Y6 in T3. destruct T3 as (T3 & T4). eapply Ntok; [exact T3|apply in_or_app; left; exact T4|exact T1]. }
  exists y, cs. split; auto. split; [|rewrite Y1; auto].
  constructor; rewrite ?Y1.
  - constructor; rewrite ?Y1.
    + rewrite Wh. apply (ul_nodup _ U).
    + destruct Eo as (body & e & E1 & E2 & E3). exists body, e. split; auto. unfold tyof in *. rewrite Forall_forall in *. split; [rewrite Y8; auto; apply Nun; rewrite E1; apply in_or_app; right; left; auto|].
      intros t T. rewrite Y8; [auto|apply Nun; rewrite E1; apply in_or_app; auto].
    + intros t d T1 T2 T3. destruct (Y10 t) as (Q & _). rewrite Q in T2. assert (D : In d (concat cs)) by (apply Cd; eauto).
      apply in_concat in D. destruct D as (c & C1 & C2). apply in_split in C2. destruct C2 as (a & b & ->). destruct (Y4 _ C1 a d b eq_refl) as (_ & _ & ->). f_equal. apply owner_spec; auto. apply (ul_nodup _ U).
    + intros t T1. rewrite Y13, R1 by auto. cbn [stamps_of count_occ]. destruct (Y10 t) as (-> & _). unfold matched, ndirs. rewrite Nat.add_0_r. f_equal. f_equal. apply filter_ext_in. intros d D.
      destruct (isdird (x_heap y) d) eqn:I.
      * apply existsb_exists. exists d. split; [apply Cd; eauto|apply Nat.eqb_refl].
      * destruct (existsb (Nat.eqb d) (concat cs)) eqn:I2; auto. apply existsb_exists in I2. destruct I2 as (e & E1 & E2). apply Nat.eqb_eq in E2. subst e. apply Cd in E1. destruct E1. congruence.
  - constructor.
    + apply nodup_app_l in Y5. auto.
    + intros d. rewrite Cd. split; intros ((t & T1 & T2) & T3); (split; [exists t; destruct (Y10 t) as (Q & _); split; congruence|auto]).
    + intros c Hc. split; [|eapply linked_seg; eauto]. destruct (S1 c Hc) as (i & m & e & -> & K1 & K2 & K3). exists i, m, e. split; auto. unfold norm, K in *.
      assert (Ty : forall d, In d (i :: m ++ [e]) -> n_type (x_heap y d) = n_type (x_heap x d)) by (intros d D; apply Y8; apply Dis; apply in_concat; eauto).
      rewrite !Ty by (cbn; auto; right; apply in_or_app; right; left; auto). split; [pose proof (norm_kind (n_type (x_heap x i))) as Q; rewrite K1 in Q; auto|].
      split; [|pose proof (norm_kind (n_type (x_heap x e))) as Q; rewrite K3 in Q; auto].
      rewrite Forall_forall in *. intros d D. rewrite Ty by (right; apply in_or_app; auto). pose proof (norm_kind (n_type (x_heap x d))) as Q. rewrite K2 in Q; auto.
  - intros t p T1 T2. destruct (Y10 t) as (Q1 & Q2 & _). rewrite Q1, Q2 in T2. destruct (Y10 p) as (-> & -> & _). destruct (Lf t p T1 T2) as (A & B & C). split; auto.
    (* references of a prefix: nothing refers to it *)
    rewrite <- A. apply Y14. eauto.
  - intros t [].
  - intros t p T1 T2. destruct (Y10 t) as (_ & Q & _). rewrite Q in T2. destruct (isdird (x_heap y) p) eqn:I; auto. apply Isd in I. destruct I as (I & _). unfold isdird in I. rewrite (Sf t) in I; auto.
Qed.

(** ** Histories *)
(** What may happen to tokens after tokenization: reading on or seeking, taking a stamp,
    unlinking a directive, removing a token alone or with its prefixes and suffixes. *)
Inductive op : Set := OSeek (t : id) | OStamp | OUnlink (d : id) | ORemove (tk : id) | ORemoveAll (tk : id).
Definition op_ok (x : lex) (o : op) : Prop :=
  match o with
  | OSeek t => In t (x_toks x)
  | OStamp => True
  | OUnlink d => exists t, In t (x_toks x) /\ In d (n_pre (x_heap x t))
  | ORemove tk | ORemoveAll tk => In tk (x_toks x) /\ tyof x tk <> T_EOF
  end.
Definition exec (o : op) (x : lex) (stamps : list id) : option (lex * list id) :=
  match o with
  | OSeek t => Some (set_cur (Some t) x, stamps)
  | OStamp => Some (stamp x stamps)
  | OUnlink d => do h <- branch_unlink d (x_heap x); Some (set_heap h x, stamps)
  | ORemove tk => do y <- remove tk x; Some (y, stamps)
  | ORemoveAll tk => do y <- remove_token tk x; Some (y, stamps)
  end.
Inductive reach (x : lex) : lex -> list id -> Prop :=
| reach_start : reach x x []
| reach_step : forall y s o y' s', reach x y s -> op_ok y o -> exec o y s = Some (y', s') -> reach x y' s'.

Definition cur_ok (x : lex) : Prop := forall t, x_cur x = Some t -> In t (x_toks x).
Lemma set_cur_life : forall x s cs c, life x s cs -> life (set_cur c x) s cs.
Proof. intros x s cs c [L1 L2 L3 L4 L5]. destruct L1. constructor; auto. constructor; auto. Qed.
Lemma not_eof_split : forall E x tk, wfl E x -> In tk (x_toks x) -> tyof x tk <> T_EOF -> exists a nx b, x_toks x = a ++ tk :: nx :: b.
Proof.
  intros E x tk W Ht Hn. destruct (wl_eof _ _ W) as (body & e & B1 & B2 & B3). apply in_split in Ht. destruct Ht as (a & b & Ht). destruct b as [|nx b]; [|eauto].
  exfalso. rewrite B1 in Ht. apply app_inj_tail in Ht. destruct Ht as (_ & ->). auto.
Qed.
Lemma remove_cur : forall x s cs tk y, life x s cs -> cur_ok x -> In tk (x_toks x) -> tyof x tk <> T_EOF -> remove tk x = Some y -> cur_ok y.
Proof.
  intros x s cs tk y L Hc Ht Hn E. destruct (not_eof_split _ _ _ (li_wfl _ _ _ L) Ht Hn) as (a & nx & b & Et).
  destruct (remove_spec _ a tk nx b x (li_wfl _ _ _ L) Et) as (y' & E' & R & _). assert (y' = y) by congruence. subst y'.
  intros t Hx. rewrite (rm_cur _ _ _ _ _ _ _ R) in Hx. rewrite (rm_toks _ _ _ _ _ _ _ R). destruct (x_cur x) as [c|] eqn:Ec; [|discriminate].
  destruct (Nat.eqb_spec c tk) as [->|N].
  - destruct (rev a) as [|q r] eqn:Er; [discriminate|]. injection Hx as ->. apply in_or_app. left. apply in_rev. rewrite Er. left; auto.
  - injection Hx as ->. assert (K := Hc t Ec). rewrite Et in K. apply in_app_or in K. apply in_or_app. destruct K as [K|[K|K]]; auto. congruence.
Qed.

Lemma exec_life : forall o x s cs, life x s cs -> cur_ok x -> op_ok x o ->
  exists y s' cs', exec o x s = Some (y, s') /\ life y s' cs' /\ cur_ok y.
Proof.
  intros o x s cs L Hc Ho. destruct o; cbn [op_ok exec] in *.
  - eexists. eexists. exists cs. split; [reflexivity|]. split; [apply set_cur_life; auto|]. intros u Hu. cbn in *. injection Hu as <-. auto.
  - exists (fst (stamp x s)), (snd (stamp x s)), cs. split; [destruct (stamp x s); auto|]. split; [apply stamp_life; auto|].
    intros u Hu. unfold stamp in *. destruct (x_cur x) as [c|] eqn:Ec; cbn in *; [apply Hc; congruence|congruence].
  - destruct Ho as (t & T1 & T2). destruct (unlink_life x s cs d t L T1 T2) as (g & cs' & -> & L' & _). eexists. eexists. exists cs'. split; [reflexivity|]. split; auto.
  - destruct Ho as (T1 & T2). destruct (not_eof_split _ _ _ (li_wfl _ _ _ L) T1 T2) as (a & nx & b & Et). destruct (remove_life x s cs a tk nx b L Et) as (y & E & L'). rewrite E.
    eexists. eexists. exists cs. split; [reflexivity|]. split; auto. exact (remove_cur x s cs tk y L Hc T1 T2 E).
  - destruct Ho as (T1 & T2). destruct (not_eof_split _ _ _ (li_wfl _ _ _ L) T1 T2) as (a & nx & b & Et). destruct (remove_token_life x s cs a tk nx b L Et) as (y & cs' & E & L' & Ty). rewrite E.
    eexists. eexists. exists cs'. split; [reflexivity|]. split; auto.
    unfold remove_token in E. destruct (remove_prefixes_life _ x s cs tk L T1 eq_refl) as (h1 & cs1 & E1 & L1 & _). rewrite E1 in E.
    destruct (remove_suffixes_life _ (set_heap h1 x) s cs1 tk L1 T1 eq_refl) as (h2 & E2 & L2); [intros p Hp; apply (li_suf _ _ _ L1 tk); auto|].
    cbn [x_heap set_heap] in E2. rewrite E2 in E. change (set_heap h2 (set_heap h1 x)) with (set_heap h2 x) in L2.
    destruct (remove_spec _ a tk nx b (set_heap h2 x) (li_wfl _ _ _ L2) Et) as (y' & E' & R & _). assert (y' = y) by congruence. subst y'.
    intros t Hx. rewrite (rm_cur _ _ _ _ _ _ _ R) in Hx. cbn [x_cur set_heap] in Hx. rewrite Ty. destruct (x_cur x) as [c|] eqn:Ec; [|discriminate].
    destruct (Nat.eqb_spec c tk) as [->|N].
    + destruct (rev a) as [|q r] eqn:Er; [discriminate|]. injection Hx as ->. apply in_or_app. left. apply in_rev. rewrite Er. left; auto.
    + injection Hx as ->. assert (K := Hc t Ec). rewrite Et in K. apply in_app_or in K. apply in_or_app. destruct K as [K|[K|K]]; auto. congruence.
Qed.
Lemma reach_life : forall x cs y s, life x [] cs -> cur_ok x -> reach x y s -> (exists cs', life y s cs') /\ cur_ok y.
Proof.
  intros x cs y s L Hc R. induction R as [|y s o y' s' R IH Ho E]; [eauto|]. destruct IH as ((cs' & L') & C').
  destruct (exec_life o y s cs' L' C' Ho) as (y2 & s2 & cs2 & E2 & L2 & C2). assert (y2 = y' /\ s2 = s') as (-> & ->) by (split; congruence). eauto.
Qed.
