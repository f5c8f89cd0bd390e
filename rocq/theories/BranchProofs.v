(** Specification and proofs for the links between preprocessor branches. *)
From Coq Require Import Permutation.
From Verif Require Import Base TokenModel StreamModel StreamProofs TokListModel TokListProofs BranchModel.

(** ** Specification: conditionals as brackets *)
Inductive kind : Set := KIf | KElse | KEnd | KNone.
Definition kind_of (t : ttype) : kind :=
  match t with
  | T_CPP_IF | T_CPP_IFDEF | T_CPP_IFNDEF => KIf
  | T_CPP_ELSE | T_CPP_ELIF => KElse
  | T_CPP_ENDIF => KEnd
  | _ => KNone
  end.

Section Grammar.
Variable K : id -> kind.
(** [bal ds cs]: the directives [ds] are a sequence of complete conditionals, [cs] lists the
    directives of each of them, nested ones included.
    [grp ds c cs]: [ds] starts a conditional and does not end it; [c] are its directives so
    far, [cs] the complete conditionals inside. *)
Inductive bal : list id -> list (list id) -> Prop :=
| bal_nil : bal [] []
| bal_cond : forall b cs g c cs' e, bal b cs -> grp g c cs' -> K e = KEnd -> bal (b ++ g ++ [e]) (cs ++ cs' ++ [c ++ [e]])
with grp : list id -> list id -> list (list id) -> Prop :=
| grp_if : forall d b cs, K d = KIf -> bal b cs -> grp (d :: b) [d] cs
| grp_else : forall g c cs e b cs', grp g c cs -> K e = KElse -> bal b cs' -> grp (g ++ e :: b) (c ++ [e]) (cs ++ cs').
(** Outside of all conditionals: #else and #endif that match nothing ([s]). *)
Inductive strays : list id -> list (list id) -> list id -> Prop :=
| sy_bal : forall b cs, bal b cs -> strays b cs []
| sy_more : forall a cs s e b cs', strays a cs s -> K e = KElse \/ K e = KEnd -> bal b cs' -> strays (a ++ e :: b) (cs ++ cs') (s ++ [e]).
(** Conditionals that are never ended ([os]: their directives). *)
Inductive opens : list id -> list (list id) -> list (list id) -> Prop :=
| op_nil : opens [] [] []
| op_more : forall a cs os g c cs', opens a cs os -> grp g c cs' -> opens (a ++ g) (cs ++ cs') (os ++ [c]).
(** A whole file: [cs] are its complete conditionals, [un] the unmatched directives. *)
Definition file (ds : list id) (cs : list (list id)) (un : list id) : Prop :=
  exists a o cs1 cs2 s os, ds = a ++ o /\ strays a cs1 s /\ opens o cs2 os /\ cs = cs1 ++ cs2 /\ un = s ++ concat os.

Scheme bal_ind2 := Minimality for bal Sort Prop with grp_ind2 := Minimality for grp Sort Prop.
Combined Scheme bal_grp_ind from bal_ind2, grp_ind2.

Lemma bal_app : forall b' cs', bal b' cs' -> forall b cs, bal b cs -> bal (b ++ b') (cs ++ cs').
Proof.
  intros b' cs' H. induction H using bal_ind2 with (P0 := fun _ _ _ => True); intros; auto.
  - rewrite !app_nil_r. auto.
  - rewrite (app_assoc b0), (app_assoc cs0). apply bal_cond; auto.
Qed.
Lemma grp_app : forall g c cs b cs', grp g c cs -> bal b cs' -> grp (g ++ b) c (cs ++ cs').
Proof.
  intros g c cs b cs' H Hb. destruct H.
  - cbn [app]. apply grp_if; auto. apply bal_app; auto.
  - rewrite <- app_assoc. cbn [app]. rewrite <- app_assoc. apply grp_else; auto. apply bal_app; auto.
Qed.
Lemma strays_app : forall a cs s b cs', strays a cs s -> bal b cs' -> strays (a ++ b) (cs ++ cs') s.
Proof.
  intros a cs s b cs' H Hb. destruct H.
  - constructor. apply bal_app; auto.
  - rewrite <- app_assoc. cbn [app]. rewrite <- app_assoc. apply sy_more; auto. apply bal_app; auto.
Qed.

(** Every sequence of directives has a parse. *)
Lemma file_exists : forall ds, (forall d, In d ds -> K d <> KNone) -> exists cs un, file ds cs un.
Proof.
  induction ds as [|e ds IH] using rev_ind; intros Hk.
  - exists [], []. exists [], [], [], [], [], []. repeat split; auto; repeat constructor.
  - destruct IH as (cs & un & a & o & cs1 & cs2 & s & os & -> & Hs & Ho & _ & _); [intros d Hd; apply Hk; apply in_or_app; auto|].
    assert (He : K e <> KNone) by (apply Hk; apply in_or_app; right; left; auto).
    destruct (K e) eqn:Ek; try congruence.
    + eexists. eexists. exists a, (o ++ [e]), cs1, (cs2 ++ []), s, (os ++ [[e]]). split; [rewrite app_assoc; auto|]. split; [auto|]. split; [|auto].
      apply op_more; auto. apply (grp_if e [] []); auto. constructor.
    + destruct Ho as [|o cs2 os g c cs' Ho Hg].
      * eexists. eexists. exists (a ++ [e]), [], (cs1 ++ []), [], (s ++ [e]), []. split; [rewrite !app_nil_r; auto|]. split; [|split; [constructor|auto]].
        apply sy_more; auto. constructor.
      * eexists. eexists. exists a, (o ++ (g ++ [e])), cs1, (cs2 ++ (cs' ++ [])), s, (os ++ [c ++ [e]]). split; [rewrite !app_assoc; auto|]. split; [auto|]. split; [|auto].
        apply op_more; auto. apply grp_else; auto. constructor.
    + destruct Ho as [|o cs2 os g c cs' Ho Hg].
      * eexists. eexists. exists (a ++ [e]), [], (cs1 ++ []), [], (s ++ [e]), []. split; [rewrite !app_nil_r; auto|]. split; [|split; [constructor|auto]].
        apply sy_more; auto. constructor.
      * assert (Hb : bal (g ++ [e]) (cs' ++ [c ++ [e]])) by (apply (bal_cond [] [] g c cs' e); auto; constructor).
        destruct Ho as [|o cs2 os g2 c2 cs2' Ho Hg2].
        -- eexists. eexists. exists (a ++ (g ++ [e])), [], (cs1 ++ (cs' ++ [c ++ [e]])), [], s, []. cbn [app]. split; [rewrite !app_nil_r, app_assoc; auto|].
           split; [apply strays_app; auto|]. split; [constructor|auto].
        -- eexists. eexists. exists a, (o ++ (g2 ++ g ++ [e])), cs1, (cs2 ++ (cs2' ++ cs' ++ [c ++ [e]])), s, (os ++ [c2]).
           split; [rewrite !app_assoc; auto|]. split; auto. split; [|auto]. apply op_more; auto. apply grp_app; auto.
Qed.

(** ** A matcher with a stack *)
(** Open conditionals (the last directive first), complete ones, unmatched directives. *)
Record pst : Type := P { p_open : list (list id); p_done : list (list id); p_stray : list id }.
Definition pstep (d : id) (s : pst) : pst :=
  match K d with
  | KIf => P ([d] :: p_open s) (p_done s) (p_stray s)
  | KElse => match p_open s with [] => P [] (p_done s) (p_stray s ++ [d]) | c :: o => P ((d :: c) :: o) (p_done s) (p_stray s) end
  | KEnd => match p_open s with [] => P [] (p_done s) (p_stray s ++ [d]) | c :: o => P o (p_done s ++ [rev (d :: c)]) (p_stray s) end
  | KNone => s
  end.
Definition prun (ds : list id) (s : pst) : pst := fold_left (fun s d => pstep d s) ds s.
Lemma prun_app : forall a b s, prun (a ++ b) s = prun b (prun a s).
Proof. intros. apply fold_left_app. Qed.

Lemma bal_grp_run :
  (forall b cs, bal b cs -> forall s, prun b s = P (p_open s) (p_done s ++ cs) (p_stray s)) /\
  (forall g c cs, grp g c cs -> forall s, prun g s = P (rev c :: p_open s) (p_done s ++ cs) (p_stray s)).
Proof.
  apply bal_grp_ind.
  - intros s. destruct s. cbn. rewrite app_nil_r. auto.
  - intros b cs g c cs' e _ IH1 _ IH2 He s. rewrite !prun_app, IH1, IH2. cbn. unfold pstep. rewrite He. cbn. rewrite rev_involutive, <- !app_assoc. auto.
  - intros d b cs Hd _ IH s. change (d :: b) with ([d] ++ b). rewrite prun_app, IH. cbn. unfold pstep. rewrite Hd. auto.
  - intros g c cs e b cs' _ IH1 He _ IH2 s. change (e :: b) with ([e] ++ b). rewrite !prun_app, IH1, IH2. cbn. unfold pstep. rewrite He. cbn.
    rewrite rev_app_distr. cbn. rewrite <- app_assoc. auto.
Qed.
Lemma file_run : forall ds cs un, file ds cs un ->
  exists o s, prun ds (P [] [] []) = P o cs s /\ Permutation un (s ++ concat o).
Proof.
  intros ds cs un (a & o & cs1 & cs2 & s & os & -> & Hs & Ho & -> & ->). destruct bal_grp_run as (B & G).
  assert (R1 : prun a (P [] [] []) = P [] cs1 s).
  { clear Ho. induction Hs as [b cs Hb|a cs s e b cs' Hs IH He Hb].
    - rewrite (B _ _ Hb). auto.
    - change (e :: b) with ([e] ++ b). rewrite !prun_app, IH, (B _ _ Hb). cbn. unfold pstep. destruct He as [->| ->]; auto. }
  assert (R2 : forall st, prun o st = P (rev (map (@rev id) os) ++ p_open st) (p_done st ++ cs2) (p_stray st)).
  { clear Hs R1. induction Ho as [|a' cs os g c cs' Ho IH Hg]; intros st; [destruct st; cbn; rewrite app_nil_r; auto|].
    rewrite prun_app, IH, (G _ _ _ Hg). cbn. rewrite map_app, rev_app_distr. cbn. rewrite <- app_assoc. auto. }
  rewrite prun_app, R1, R2. cbn. rewrite app_nil_r. eexists. eexists. split; [reflexivity|]. apply Permutation_app_head.
  clear. induction os as [|c os IH] using rev_ind; auto. rewrite concat_app, map_app, rev_app_distr. cbn. rewrite app_nil_r, Permutation_app_comm.
  apply Permutation_app; auto. apply Permutation_rev.
Qed.
End Grammar.

Lemma kind_isdir : forall t, kind_of t = KNone <-> isdir t = false.
Proof. intros t. destruct t; cbn; split; intros H; auto; discriminate. Qed.

(** ** The heap follows the matcher *)
(** Fields branches do not touch. *)
Definition frameb (h g : heap) : Prop := forall i,
  n_pre (g i) = n_pre (h i) /\ n_suf (g i) = n_suf (h i) /\ n_str (g i) = n_str (h i) /\
  n_lno (g i) = n_lno (h i) /\ n_cno (g i) = n_cno (h i) /\ n_live (g i) = n_live (h i).
Lemma frameb_refl : forall h, frameb h h.
Proof. intros h i. auto 10. Qed.
Lemma frameb_trans : forall a b c, frameb a b -> frameb b c -> frameb a c.
Proof.
  intros a b c H J i. destruct (H i) as (A1 & A2 & A3 & A4 & A5 & A6), (J i) as (B1 & B2 & B3 & B4 & B5 & B6). repeat split; congruence.
Qed.


(** What one prefix tells token_branch_find. *)
Definition contrib (h : heap) (p : id) : option id :=
  if ttype_eqb (type_normalize (n_type (h p))) T_CPP_ELSE then
    match n_pv (h p) with
    | None => None
    | Some pv => if match n_parent (h p), n_parent (h pv) with Some a, Some b => a =? b | None, None => true | _, _ => false end then None else Some pv
    end
  else None.
Lemma branch_find1_contrib : forall h p r, branch_find1 h (p :: r) = match contrib h p with Some q => Some q | None => branch_find1 h r end.
Proof.
  intros. cbn [branch_find1]. unfold contrib. destruct (ttype_eqb _ _); cbn [negb]; auto. destruct (n_pv (h p)); auto. destruct (match n_parent (h p) with Some _ => _ | None => _ end); auto.
Qed.
Lemma branch_find_local : forall h g t, n_pre (g t) = n_pre (h t) -> (forall d, In d (n_pre (h t)) -> contrib g d = contrib h d) -> branch_find g t = branch_find h t.
Proof.
  intros h g t Hp H. unfold branch_find. rewrite Hp. clear Hp. induction (n_pre (h t)) as [|d l IH]; auto. rewrite !branch_find1_contrib.
  rewrite (H d), IH; auto; [|left; auto]. intros e He. apply H. right; auto.
Qed.
Lemma contrib_same : forall h g d, n_type (g d) = n_type (h d) -> n_pv (g d) = n_pv (h d) -> n_parent (g d) = n_parent (h d) ->
  (forall q, n_pv (h d) = Some q -> n_parent (g q) = n_parent (h q)) -> contrib g d = contrib h d.
Proof.
  intros h g d H1 H2 H3 H4. unfold contrib. rewrite H1, H2, H3. destruct (n_pv (h d)) as [q|]; auto. rewrite (H4 q); auto.
Qed.
Lemma contrib_type : forall h d, n_type (h d) = T_CPP -> contrib h d = None.
Proof. intros h d H. unfold contrib. rewrite H. auto. Qed.
Lemma contrib_pv : forall h d, n_pv (h d) = None -> contrib h d = None.
Proof. intros h d H. unfold contrib. rewrite H. destruct (ttype_eqb _ _); auto. Qed.

(** Heaps that differ in flags only. *)
Definition flagsonly (h g : heap) : Prop := forall i, g i = set_flags (n_flags (g i)) (h i) /\ same_flags_but_branch h g i.
Lemma flagsonly_refl : forall h, flagsonly h h.
Proof. intros h i. split; [destruct (h i); auto|reflexivity]. Qed.
Lemma flagsonly_trans : forall a b c, flagsonly a b -> flagsonly b c -> flagsonly a c.
Proof.
  intros a b c H J i. destruct (H i) as (A1 & A2), (J i) as (B1 & B2). split; [|unfold same_flags_but_branch in *; congruence].
  rewrite B1 at 1. rewrite A1. destruct (a i); auto.
Qed.
Lemma flagsonly_fields : forall h g, flagsonly h g -> frameb h g /\ brsame g h /\ (forall i, n_refs (g i) = n_refs (h i)).
Proof.
  intros h g H. split; [intros i; destruct (H i) as (-> & _); cbn; auto 10|]. split; intros i; destruct (H i) as (-> & _); cbn; auto 10.
Qed.
Lemma flagsonly_update : forall h t, flagsonly h (update_flags t h).
Proof.
  intros h t i. destruct (update_flags_spec t h) as [Fo Fs Ff Fr]. destruct (Nat.eq_dec i t) as [->|N]; [auto|].
  unfold same_flags_but_branch. rewrite Fo by auto. split; auto. destruct (h i); auto.
Qed.
Lemma update_keeps : forall h t u, branch_flag h u -> branch_flag (update_flags t h) u.
Proof.
  intros h t u H. destruct (Nat.eq_dec u t) as [->|N]; [apply (update_flags_spec t h)|].
  destruct (flagsonly_fields _ _ (flagsonly_update h t)) as (F & B & _).
  unfold branch_flag. rewrite (branch_find_same _ h) by (auto; apply F). rewrite (fu_other _ _ _ (update_flags_spec t h)) by auto. auto.
Qed.

Section Link.
Variable h0 : heap.
Variable toks : list id.
Variable T : id -> id.
Hypothesis Hnd : NoDup (whole h0 toks).
Hypothesis HT : forall t d, In t toks -> In d (n_pre (h0 t)) -> T d = t.
Hypothesis Hinit : forall i, n_pv (h0 i) = None /\ n_nx (h0 i) = None /\ n_parent (h0 i) = None.
Hypothesis Hflag : forall i, N.testbit (n_flags (h0 i)) 3 = false.
Hypothesis Href : forall t, In t toks -> n_refs (h0 t) >= 1.

(** [d] is a prefix of a listed token. *)
Definition isprefix (d : id) : Prop := In (T d) toks /\ In d (n_pre (h0 (T d))).
Lemma isprefix_intro : forall t d, In t toks -> In d (n_pre (h0 t)) -> isprefix d.
Proof. intros t d H1 H2. unfold isprefix. rewrite (HT t d H1 H2). auto. Qed.
Lemma prefix_not_tok : forall d t, isprefix d -> In t toks -> d <> t.
Proof.
  intros d t (H1 & H2) Ht ->. destruct (whole_disj h0 toks (T t) Hnd H1) as (_ & _ & H3 & _). destruct (H3 t Ht) as (H4 & _). contradiction.
Qed.

(** A chain of directives in source order; nothing is said about the end of the last one. *)
Fixpoint links (h : heap) (pv : option id) (c : list id) : Prop :=
  match c with
  | [] => True
  | d :: r => n_pv (h d) = pv /\ match r with [] => True | e :: _ => n_nx (h d) = Some e end /\
              n_parent (h d) = Some (T d) /\ n_type (h d) = n_type (h0 d) /\ links h (Some d) r
  end.
Definition cnt (t : id) (l : list id) : nat := length (filter (fun d => T d =? t) l).
Lemma cnt_app : forall t a b, cnt t (a ++ b) = cnt t a + cnt t b.
Proof. intros. unfold cnt. rewrite filter_app, app_length. auto. Qed.
Lemma cnt_cons : forall t d l, cnt t (d :: l) = (if T d =? t then 1 else 0) + cnt t l.
Proof. intros. unfold cnt. cbn [filter]. destruct (T d =? t); auto. Qed.
Lemma cnt_rev : forall t l, cnt t (rev l) = cnt t l.
Proof. induction l as [|d l IH]; auto. cbn [rev]. rewrite cnt_app, IH, !cnt_cons. cbn. lia. Qed.

Definition all (op dn : list (list id)) (sy : list id) : list id := concat op ++ concat dn ++ sy.
Record HI (h : heap) (op dn : list (list id)) (sy : list id) : Prop := {
  hi_frame : frameb h0 h;
  hi_nodup : NoDup (all op dn sy);
  hi_prefix : forall d, In d (all op dn sy) -> isprefix d;
  hi_open : forall c, In c op -> links h None (rev c);
  hi_done : forall c, In c dn -> links h None c /\ forall a d, c = a ++ [d] -> n_nx (h d) = None;
  hi_stray : forall d, In d sy -> n_type (h d) = T_CPP /\ n_pv (h d) = None /\ n_nx (h d) = None /\ n_parent (h d) = None;
  hi_rest : forall i, ~ In i (all op dn sy) -> n_type (h i) = n_type (h0 i) /\ n_pv (h i) = None /\ n_nx (h i) = None /\ n_parent (h i) = None;
  hi_refs : forall t, n_refs (h t) = n_refs (h0 t) + cnt t (concat op ++ concat dn);
  hi_flags : forall i, same_flags_but_branch h0 h i;
  hi_branch : forall t, In t toks -> (forall d, In d (concat op) -> T d <> t) -> branch_flag h t
}.

Lemma HI_init : HI h0 [] [] [].
Proof.
  assert (B : forall t, branch_flag h0 t).
  { intros t. unfold branch_flag. rewrite Hflag.
    assert (E : branch_find h0 t = None); [|rewrite E; auto]. unfold branch_find. induction (n_pre (h0 t)) as [|d l IH]; auto. rewrite branch_find1_contrib, contrib_pv; auto. apply Hinit. }
  constructor; auto; try (intros; contradiction).
  - apply frameb_refl.
  - constructor.
  - intros i. reflexivity.
Qed.

(** Links only point into chains, and never to the last directive of a chain. *)
Lemma links_in : forall h c pv d, links h pv c -> In d c ->
  n_parent (h d) = Some (T d) /\ n_type (h d) = n_type (h0 d) /\ (forall q, n_pv (h d) = Some q -> In q (removelast c) \/ pv = Some q).
Proof.
  induction c as [|e c IH]; intros pv d L Hd; [destruct Hd|]. destruct L as (H1 & H2 & H3 & H4 & H5). destruct Hd as [->|Hd].
  - split; auto. split; auto. intros q Hq. right. congruence.
  - destruct (IH _ d H5 Hd) as (I1 & I2 & I3). split; auto. split; auto.
    intros q Hq. left. destruct c as [|f c]; [destruct Hd|]. change (removelast (e :: f :: c)) with (e :: removelast (f :: c)).
    destruct (I3 q Hq) as [Hc|Hc]; [right; auto|left; congruence].
Qed.
Lemma removelast_in : forall (c : list id) q, In q (removelast c) -> In q c.
Proof.
  induction c as [|a [|b c] IH]; intros q H; [destruct H|destruct H|]. change (removelast (a :: b :: c)) with (a :: removelast (b :: c)) in H.
  destruct H as [->|H]; [left; auto|right; auto].
Qed.
Lemma links_ext : forall h g c pv, (forall d, In d c -> n_pv (g d) = n_pv (h d) /\ n_nx (g d) = n_nx (h d) /\ n_parent (g d) = n_parent (h d) /\ n_type (g d) = n_type (h d)) ->
  links h pv c -> links g pv c.
Proof.
  induction c as [|d c IH]; intros pv H L; cbn; auto. destruct L as (H1 & H2 & H3 & H4 & H5). destruct (H d (or_introl eq_refl)) as (-> & -> & -> & ->).
  repeat (split; auto). apply IH; auto. intros e He. apply H. right; auto.
Qed.
Lemma links_app1 : forall h a b pv, links h pv (a ++ b) -> links h pv a.
Proof.
  induction a as [|d a IH]; intros b pv L; cbn; auto. cbn [app links] in L. destruct L as (H1 & H2 & H3 & H4 & H5). repeat (split; auto); eauto.
  destruct a; auto.
Qed.
Lemma links_snoc : forall h c pv d, links h pv c -> n_parent (h d) = Some (T d) -> n_type (h d) = n_type (h0 d) ->
  n_pv (h d) = match rev c with [] => pv | e :: _ => Some e end -> (forall e r, rev c = e :: r -> n_nx (h e) = Some d) -> links h pv (c ++ [d]).
Proof.
  induction c as [|e c IH]; intros pv d L H1 H2 H3 H4; [cbn; auto 10|]. destruct L as (L1 & L2 & L3 & L4 & L5). cbn [app links].
  split; auto. split; [|split; auto; split; auto; apply IH; auto].
  - destruct c as [|f c]; cbn [app]; auto. apply (H4 e []). auto.
  - cbn [rev] in H3. destruct (rev c); auto.
  - intros f r Hr. cbn [rev] in H4. rewrite Hr in H4. apply (H4 f (r ++ [e])). auto.
Qed.
Lemma rev_removelast : forall (d : id) c, removelast (rev (d :: c)) = rev c.
Proof. intros. cbn [rev]. apply removelast_last. Qed.

Lemma HI_pv : forall h op dn sy d q, HI h op dn sy -> n_pv (h d) = Some q ->
  (exists c, In c op /\ In q (removelast (rev c))) \/ (exists c, In c dn /\ In q c).
Proof.
  intros h op dn sy d q H Hq. destruct (in_dec Nat.eq_dec d (all op dn sy)) as [Hd|Hd].
  - unfold all in Hd. apply in_app_or in Hd. destruct Hd as [Hd|Hd].
    + left. apply in_concat in Hd. destruct Hd as (c & Hc & Hd). pose proof (hi_open _ _ _ _ H c Hc) as L. apply in_rev in Hd. destruct (links_in _ _ _ _ L Hd) as (_ & _ & A).
      destruct (A q Hq) as [K|K]; [|discriminate]. eauto.
    + apply in_app_or in Hd. destruct Hd as [Hd|Hd].
      * right. apply in_concat in Hd. destruct Hd as (c & Hc & Hd). destruct (hi_done _ _ _ _ H c Hc) as (L & _). destruct (links_in _ _ _ _ L Hd) as (_ & _ & A).
        destruct (A q Hq) as [K|K]; [|discriminate]. exists c. split; auto. apply removelast_in; auto.
      * destruct (hi_stray _ _ _ _ H d Hd) as (_ & K & _). congruence.
  - destruct (hi_rest _ _ _ _ H d Hd) as (_ & K & _). congruence.
Qed.
Lemma HI_pv_in : forall h op dn sy d q, HI h op dn sy -> n_pv (h d) = Some q -> In q (all op dn sy).
Proof.
  intros h op dn sy d q H Hq. unfold all. destruct (HI_pv _ _ _ _ _ _ H Hq) as [(c & Hc & K)|(c & Hc & K)].
  - apply in_or_app. left. apply in_concat. exists c. split; auto. apply in_rev. apply removelast_in; auto.
  - apply in_or_app. right. apply in_or_app. left. apply in_concat. eauto.
Qed.
Lemma HI_pv_top : forall h op dn sy d c e, HI h ((d :: c) :: op) dn sy -> n_pv (h e) = Some d -> False.
Proof.
  intros h op dn sy d c e H Hq. pose proof (hi_nodup _ _ _ _ H) as N. unfold all in N. cbn [concat app] in N. apply NoDup_cons_iff in N. destruct N as (N & _). apply N.
  destruct (HI_pv _ _ _ _ _ _ H Hq) as [(c' & Hc & K)|(c' & Hc & K)].
  - destruct Hc as [<-|Hc].
    + rewrite rev_removelast in K. apply in_rev in K. rewrite <- !app_assoc. apply in_or_app; auto.
    + rewrite <- app_assoc. apply in_or_app. right. apply in_or_app. left. apply in_concat. exists c'. split; auto. apply in_rev. apply removelast_in; auto.
  - apply in_or_app. right. apply in_or_app. left. apply in_concat. eauto.
Qed.

Ltac hp := unfold token_ref, modify, upd in *; cbn beta;
  repeat match goal with |- context [?a =? ?b] => destruct (Nat.eqb_spec a b); subst end; cbn [n_pre n_suf n_str n_lno n_cno n_live n_type n_pv n_nx n_parent n_refs n_flags
    set_pre set_suf set_pos set_live set_type set_pv set_nx set_parent set_refs set_flags]; auto; try congruence; try lia.
Lemma in_all_op : forall op dn sy c e, In c op -> In e c -> In e (all op dn sy).
Proof. intros. apply in_or_app. left. apply in_concat; eauto. Qed.
Lemma in_all_dn : forall op dn sy c e, In c dn -> In e c -> In e (all op dn sy).
Proof. intros. apply in_or_app. right. apply in_or_app. left. apply in_concat; eauto. Qed.
Lemma in_all_sy : forall op dn sy e, In e sy -> In e (all op dn sy).
Proof. intros. apply in_or_app. right. apply in_or_app. right. auto. Qed.

(** #if *)
Lemma step_if : forall h op dn sy d, HI h op dn sy -> isprefix d -> ~ In d (all op dn sy) ->
  exists g, branch_parent d (T d) h = Some g /\ HI g ([d] :: op) dn sy /\ (forall i, n_nx (g i) = n_nx (h i)).
Proof.
  intros h op dn sy d H Hp Hn. unfold branch_parent. destruct (hi_rest _ _ _ _ H d Hn) as (R1 & R2 & R3 & R4). rewrite R4.
  set (g := modify (token_ref (T d) h) d (set_parent (Some (T d)))). exists g. split; auto.
  assert (Hdt : d <> T d) by (apply prefix_not_tok; auto; apply Hp).
  assert (Gt : forall i, n_type (g i) = n_type (h i)) by (intros; unfold g; hp).
  assert (Gp : forall i, n_pv (g i) = n_pv (h i)) by (intros; unfold g; hp).
  assert (Gn : forall i, n_nx (g i) = n_nx (h i)) by (intros; unfold g; hp).
  assert (Gf : forall i, n_flags (g i) = n_flags (h i)) by (intros; unfold g; hp).
  assert (Ga : forall i, i <> d -> n_parent (g i) = n_parent (h i)) by (intros; unfold g; hp).
  assert (Gd : n_parent (g d) = Some (T d)) by (unfold g; hp).
  assert (Gr : forall t, n_refs (g t) = n_refs (h t) + (if T d =? t then 1 else 0)).
  { intros t. unfold g. hp. }
  assert (Fr : frameb h g) by (intros i; unfold g; hp; auto 10).
  assert (Ne : forall e, In e (all op dn sy) -> e <> d) by (intros e He ->; auto).
  split; [|auto]. constructor.
  - eapply frameb_trans; [apply (hi_frame _ _ _ _ H)|auto].
  - cbn. constructor; auto. apply (hi_nodup _ _ _ _ H).
  - cbn. intros e [->|He]; auto. apply (hi_prefix _ _ _ _ H); auto.
  - intros c [<-|Hc].
    + cbn. rewrite Gp, Gd, Gt. auto 10.
    + eapply links_ext; [|apply (hi_open _ _ _ _ H c Hc)]. intros e He. apply in_rev in He. rewrite Gp, Gn, Ga, Gt; eauto using in_all_op.
  - intros c Hc. destruct (hi_done _ _ _ _ H c Hc) as (D1 & D2). split; [|intros a e ->; rewrite Gn; eauto].
    eapply links_ext; [|exact D1]. intros e He. rewrite Gp, Gn, Ga, Gt; eauto using in_all_dn.
  - intros e He. rewrite Gt, Gp, Gn, Ga; [apply (hi_stray _ _ _ _ H); auto|]. eauto using in_all_sy.
  - cbn. intros i Hi. assert (i <> d) by (intros ->; apply Hi; auto). rewrite Gt, Gp, Gn, Ga by auto. apply (hi_rest _ _ _ _ H). intros K. apply Hi. auto.
  - intros t. rewrite Gr, (hi_refs _ _ _ _ H). cbn [concat app]. rewrite cnt_cons. lia.
  - intros i. unfold same_flags_but_branch. rewrite Gf. apply (hi_flags _ _ _ _ H).
  - cbn [concat app]. intros t Hin Ht. unfold branch_flag. rewrite Gf, (branch_find_local h g).
    + apply (hi_branch _ _ _ _ H); auto. intros e He. apply Ht. right; auto.
    + apply (Fr t).
    + intros e He. apply contrib_same; auto.
      * apply Ga. intros ->. apply (Ht d); [left; auto|]. destruct (hi_frame _ _ _ _ H t) as (K & _). rewrite K in He. apply HT; auto.
      * intros q Hq. apply Ga. apply Ne. eapply HI_pv_in; eauto.
Qed.

(** Linking the directive that was just given its parent to the last open one. *)
Lemma step_join : forall h op dn sy d br c, HI h ([d] :: (br :: c) :: op) dn sy ->
  HI (modify (modify h br (set_nx (Some d))) d (set_pv (Some br))) ((d :: br :: c) :: op) dn sy.
Proof.
  intros h op dn sy d br c H. set (g := modify _ _ _).
  assert (Al : all ([d] :: (br :: c) :: op) dn sy = all ((d :: br :: c) :: op) dn sy) by reflexivity.
  pose proof (hi_nodup _ _ _ _ H) as N. unfold all in N. cbn [concat app] in N. rewrite <- !app_assoc in N.
  apply NoDup_cons_iff in N. destruct N as (N1 & N). apply NoDup_cons_iff in N. destruct N as (N2 & _).
  assert (Hne : d <> br) by (intros ->; apply N1; left; auto).
  assert (Gt : forall i, n_type (g i) = n_type (h i)) by (intros; unfold g; hp).
  assert (Gp : forall i, i <> d -> n_pv (g i) = n_pv (h i)) by (intros; unfold g; hp).
  assert (Gpd : n_pv (g d) = Some br) by (intros; unfold g; hp).
  assert (Gn : forall i, i <> br -> n_nx (g i) = n_nx (h i)) by (intros; unfold g; hp).
  assert (Gnb : n_nx (g br) = Some d) by (intros; unfold g; hp).
  assert (Gf : forall i, n_flags (g i) = n_flags (h i)) by (intros; unfold g; hp).
  assert (Ga : forall i, n_parent (g i) = n_parent (h i)) by (intros; unfold g; hp).
  assert (Gr : forall t, n_refs (g t) = n_refs (h t)) by (intros; unfold g; hp).
  assert (Fr : frameb h g) by (intros i; unfold g; hp; auto 10).
  assert (Ld := hi_open _ _ _ _ H [d] (or_introl eq_refl)). cbn in Ld. destruct Ld as (Ld1 & _ & Ld2 & Ld3 & _).
  assert (Lb := hi_open _ _ _ _ H (br :: c) (or_intror (or_introl eq_refl))).
  constructor.
  - eapply frameb_trans; [apply (hi_frame _ _ _ _ H)|auto].
  - rewrite <- Al. apply (hi_nodup _ _ _ _ H).
  - rewrite <- Al. apply (hi_prefix _ _ _ _ H).
  - intros c' [<-|Hc].
    + change (rev (d :: br :: c)) with (rev (br :: c) ++ [d]). apply links_snoc; [|rewrite Ga; auto|rewrite Gt; auto| |].
      * (* the old chain; its last successor changed *)
        cbn [rev] in Lb |- *. assert (Nb : ~ In br (rev c)) by (intros K; apply in_rev in K; apply N2; apply in_or_app; auto).
        assert (Ndc : ~ In d (rev c)) by (intros K; apply in_rev in K; apply N1; right; apply in_or_app; auto).
        assert (X : forall l pv, ~ In br l -> ~ In d l -> links h pv (l ++ [br]) -> links g pv (l ++ [br])).
        { induction l as [|e l IH]; intros pv Hb Hd L.
          - cbn in *. rewrite Gp, Ga, Gt by auto. tauto.
          - cbn [app links] in *. destruct L as (L1 & L2 & L3 & L4 & L5).
            assert (E1 : e <> d) by (intros ->; apply Hd; left; auto). assert (E2 : e <> br) by (intros ->; apply Hb; left; auto).
            rewrite Gp, Gn, Ga, Gt by auto. repeat (split; auto). apply IH; auto; intros J; [apply Hb|apply Hd]; right; auto. }
        apply X; auto.
      * rewrite Gpd, rev_involutive. auto.
      * intros e r Hr. rewrite rev_involutive in Hr. injection Hr as <- <-. auto.
    + assert (In c' ([d] :: (br :: c) :: op)) by (right; right; auto).
      eapply links_ext; [|apply (hi_open _ _ _ _ H c'); auto]. intros e He. apply in_rev in He.
      assert (e <> d /\ e <> br) as (? & ?).
      { split; intros ->; [apply N1; right|apply N2]; apply in_or_app; right; apply in_or_app; left; apply in_concat; eauto. }
      rewrite Gp, Gn, Ga, Gt by auto. auto.
  - intros c' Hc. destruct (hi_done _ _ _ _ H c' Hc) as (D1 & D2).
    assert (X : forall e, In e c' -> e <> d /\ e <> br).
    { intros e He. split; intros ->; [apply N1; right|apply N2]; apply in_or_app; right; apply in_or_app; right; apply in_or_app; left; apply in_concat; eauto. }
    split.
    + eapply links_ext; [|exact D1]. intros e He. destruct (X e He). rewrite Gp, Gn, Ga, Gt; auto.
    + intros a e ->. rewrite Gn; eauto. apply X. apply in_or_app. right. left. auto.
  - intros e He. assert (e <> d /\ e <> br) as (? & ?).
    { split; intros ->; [apply N1; right|apply N2]; apply in_or_app; right; apply in_or_app; right; apply in_or_app; right; auto. }
    rewrite Gt, Gp, Gn, Ga by auto. apply (hi_stray _ _ _ _ H); auto.
  - rewrite <- Al. intros i Hi. assert (i <> d /\ i <> br) as (? & ?) by (split; intros ->; apply Hi; cbn; auto).
    rewrite Gt, Gp, Gn, Ga by auto. apply (hi_rest _ _ _ _ H); auto.
  - intros t. rewrite Gr, (hi_refs _ _ _ _ H). reflexivity.
  - intros i. unfold same_flags_but_branch. rewrite Gf. apply (hi_flags _ _ _ _ H).
  - intros t Hin Ht. unfold branch_flag. rewrite Gf, (branch_find_local h g).
    + apply (hi_branch _ _ _ _ H); auto.
    + apply (Fr t).
    + intros e He. apply contrib_same; auto. apply Gp. intros ->. apply (Ht d); [left; auto|].
      destruct (hi_frame _ _ _ _ H t) as (K & _). rewrite K in He. apply HT; auto.
Qed.

(** Heaps that differ in flags keep the invariant, if no branch flag is lost. *)
Lemma HI_flagsonly : forall h g op dn sy, HI h op dn sy -> flagsonly h g ->
  (forall t, In t toks -> (forall d, In d (concat op) -> T d <> t) -> branch_flag g t) -> HI g op dn sy.
Proof.
  intros h g op dn sy H F Hb. pose proof (flagsonly_fields _ _ F) as (F1 & F2 & F3). constructor; auto.
  - eapply frameb_trans; [apply (hi_frame _ _ _ _ H)|auto].
  - apply (hi_nodup _ _ _ _ H).
  - apply (hi_prefix _ _ _ _ H).
  - intros c Hc. eapply links_ext; [|apply (hi_open _ _ _ _ H c Hc)]. intros d _. destruct (F2 d) as (-> & -> & -> & ->). auto.
  - intros c Hc. destruct (hi_done _ _ _ _ H c Hc) as (D1 & D2). split; [eapply links_ext; [|exact D1]; intros d _; destruct (F2 d) as (-> & -> & -> & ->); auto|].
    intros a d ->. destruct (F2 d) as (_ & _ & -> & _). eauto.
  - intros d Hd. destruct (F2 d) as (-> & -> & -> & ->). apply (hi_stray _ _ _ _ H); auto.
  - intros d Hd. destruct (F2 d) as (-> & -> & -> & ->). apply (hi_rest _ _ _ _ H); auto.
  - intros t. rewrite F3. apply (hi_refs _ _ _ _ H).
  - intros i. destruct (F i) as (_ & F4). pose proof (hi_flags _ _ _ _ H i) as F5. unfold same_flags_but_branch in *. congruence.
Qed.

Lemma leave_flags_spec : forall c fuel h, fuel > length c -> links h None (rev c) ->
  exists g, leave_flags fuel (hd_error c) h = Some g /\ flagsonly h g /\ (forall t, branch_flag h t -> branch_flag g t) /\ (forall d, In d c -> branch_flag g (T d)).
Proof.
  induction c as [|d c IH]; intros fuel h Hf L.
  - exists h. split; [destruct fuel; auto|]. split; [apply flagsonly_refl|]. split; auto. intros d Hd. destruct Hd.
  - destruct fuel as [|f]; [cbn in Hf; lia|]. cbn [hd_error leave_flags]. cbn [rev] in L.
    assert (Hd : n_parent (h d) = Some (T d) /\ n_pv (h d) = hd_error c).
    { clear - L. assert (X : forall l pv, links h pv (l ++ [d]) -> n_parent (h d) = Some (T d) /\ n_pv (h d) = match rev l with [] => pv | e :: _ => Some e end).
      { induction l as [|e l IH]; intros pv L0; cbn [app links] in L0; [tauto|]. destruct L0 as (_ & _ & _ & _ & L0). apply IH in L0. cbn [rev]. destruct (rev l); auto. }
      destruct (X _ _ L) as (X1 & X2). rewrite rev_involutive in X2. split; [exact X1|]. rewrite X2. destruct c; auto. }
    destruct Hd as (-> & ->). pose proof (flagsonly_update h (T d)) as U.
    destruct (IH f (update_flags (T d) h)) as (g & E & F & K & B).
    + cbn in Hf. lia.
    + eapply links_ext; [|apply links_app1 in L; exact L]. intros e _. destruct (flagsonly_fields _ _ U) as (_ & U2 & _). destruct (U2 e) as (-> & -> & -> & ->). auto.
    + exists g. split; auto. split; [eapply flagsonly_trans; eauto|]. split; [intros t Ht; apply K; apply update_keeps; auto|].
      intros e [<-|He]; auto. apply K. apply (update_flags_spec (T d) h).
Qed.

(** #endif completes the innermost conditional. *)
Lemma step_close : forall h op dn sy c fuel, HI h (c :: op) dn sy -> fuel > length c ->
  (forall d r, c = d :: r -> n_nx (h d) = None) ->
  exists g, leave_flags fuel (hd_error c) h = Some g /\ HI g op (dn ++ [rev c]) sy.
Proof.
  intros h op dn sy c fuel H Hf Hx. destruct (leave_flags_spec c fuel h Hf (hi_open _ _ _ _ H c (or_introl eq_refl))) as (g & E & F & K & B).
  exists g. split; auto.
  assert (H1 : HI g (c :: op) dn sy).
  { apply (HI_flagsonly h); auto. intros t Ht Hn. apply K. apply (hi_branch _ _ _ _ H); auto. }
  assert (P1 : Permutation (all (c :: op) dn sy) (all op (dn ++ [rev c]) sy)).
  { unfold all. rewrite concat_app. cbn [concat app]. rewrite app_nil_r. rewrite <- (Permutation_rev c). permc. }
  assert (I1 : forall i, In i (all (c :: op) dn sy) <-> In i (all op (dn ++ [rev c]) sy)) by (intros; split; apply Permutation_in; auto; symmetry; auto).
  constructor.
  - apply (hi_frame _ _ _ _ H1).
  - eapply Permutation_NoDup; [exact P1|apply (hi_nodup _ _ _ _ H1)].
  - intros d Hd. apply (hi_prefix _ _ _ _ H1). apply I1; auto.
  - intros c' Hc. apply (hi_open _ _ _ _ H1). right; auto.
  - intros c' Hc. apply in_app_or in Hc. destruct Hc as [Hc|[<-|[]]]; [apply (hi_done _ _ _ _ H1); auto|]. split; [apply (hi_open _ _ _ _ H1); left; auto|].
    intros a d Ea. apply (f_equal (@rev id)) in Ea. rewrite rev_involutive, rev_app_distr in Ea. cbn in Ea.
    destruct (flagsonly_fields _ _ F) as (_ & F2 & _). destruct (F2 d) as (_ & _ & -> & _). eauto.
  - apply (hi_stray _ _ _ _ H1).
  - intros i Hi. apply (hi_rest _ _ _ _ H1). intros J. apply Hi. apply I1; auto.
  - intros t. rewrite (hi_refs _ _ _ _ H1). rewrite concat_app. cbn [concat]. rewrite app_nil_r, !cnt_app, cnt_rev. lia.
  - apply (hi_flags _ _ _ _ H1).
  - intros t Ht Hn. destruct (in_dec Nat.eq_dec t (map T c)) as [Hi|Hi].
    + apply in_map_iff in Hi. destruct Hi as (d & <- & Hd). auto.
    + apply (hi_branch _ _ _ _ H1); auto. intros d Hd. cbn [concat] in Hd. apply in_app_or in Hd. destruct Hd as [Hd|Hd]; auto. intros Eq. apply Hi. apply in_map_iff; eauto.
Qed.

(** Reverting the last directive of an open conditional. *)
Lemma step_revert : forall h op dn sy d c, HI h ((d :: c) :: op) dn sy ->
  exists g, branch_revert d h = Some g /\ HI g (c :: op) dn (sy ++ [d]) /\ n_pv (h d) = hd_error c.
Proof.
  intros h op dn sy d c H. assert (L := hi_open _ _ _ _ H (d :: c) (or_introl eq_refl)). cbn [rev] in L.
  assert (Hd : n_parent (h d) = Some (T d) /\ n_pv (h d) = hd_error c).
  { clear - L. assert (X : forall l pv, links h pv (l ++ [d]) -> n_parent (h d) = Some (T d) /\ n_pv (h d) = match rev l with [] => pv | e :: _ => Some e end).
    { induction l as [|e l IH]; intros pv L0; cbn [app links] in L0; [tauto|]. destruct L0 as (_ & _ & _ & _ & L0). apply IH in L0. cbn [rev]. destruct (rev l); auto. }
    destruct (X _ _ L) as (X1 & X2). rewrite rev_involutive in X2. split; [exact X1|]. rewrite X2. destruct c; auto. }
  destruct Hd as (Pa & Pv).
  assert (Hp : isprefix d) by (apply (hi_prefix _ _ _ _ H); cbn; auto).
  assert (Hdt : d <> T d) by (apply prefix_not_tok; auto; apply Hp).
  unfold branch_revert. set (h1 := modify h d (set_type T_CPP)).
  assert (E1 : n_parent (h1 d) = Some (T d)) by (unfold h1; rewrite mod_eq; auto). rewrite E1.
  set (h2 := update_flags (T d) h1). destruct (update_flags_spec (T d) h1) as [Fo Fs Ff Fr]. fold h2 in Fo, Fs, Ff, Fr.
  assert (R2 : n_refs (h2 (T d)) = n_refs (h (T d))) by (rewrite Fs; cbn; unfold h1; hp).
  assert (R3 : n_refs (h (T d)) >= 2).
  { rewrite (hi_refs _ _ _ _ H). cbn [concat app]. rewrite cnt_cons, Nat.eqb_refl. pose proof (Href (T d) (proj1 Hp)). lia. }
  rewrite rele_many by lia. rewrite R2. set (h3 := modify h2 (T d) (set_refs (n_refs (h (T d)) - 1))).
  set (g := modify h3 d (fun n => set_pv None (set_nx None (set_parent None n)))). exists g. split; auto. split; [|auto].
  assert (G : forall i, i <> d -> i <> T d -> g i = h i).
  { intros i N1 N2. unfold g. rewrite mod_neq by auto. unfold h3. rewrite mod_neq by auto. rewrite Fo by auto. unfold h1. rewrite mod_neq; auto. }
  assert (Gd : g d = set_pv None (set_nx None (set_parent None (set_type T_CPP (h d))))).
  { unfold g. rewrite mod_eq. unfold h3. rewrite mod_neq by auto. rewrite Fo by auto. unfold h1. rewrite mod_eq. auto. }
  assert (GT : g (T d) = set_refs (n_refs (h (T d)) - 1) (set_flags (n_flags (h2 (T d))) (h (T d)))).
  { unfold g. rewrite mod_neq by auto. unfold h3. rewrite mod_eq. rewrite Fs at 1. unfold h1. rewrite mod_neq by auto. auto. }
  assert (Gb : forall i, i <> d -> n_type (g i) = n_type (h i) /\ n_pv (g i) = n_pv (h i) /\ n_nx (g i) = n_nx (h i) /\ n_parent (g i) = n_parent (h i)).
  { intros i N. destruct (Nat.eq_dec i (T d)) as [->|N2]; [rewrite GT; cbn; auto|rewrite G; auto]. }
  assert (Gb' : forall i, i <> d -> n_pv (g i) = n_pv (h i) /\ n_nx (g i) = n_nx (h i) /\ n_parent (g i) = n_parent (h i) /\ n_type (g i) = n_type (h i)).
  { intros i N. destruct (Gb i N) as (? & ? & ? & ?); auto. }
  assert (Fm : frameb h g).
  { intros i. destruct (Nat.eq_dec i d) as [->|N]; [rewrite Gd; cbn; auto 10|]. destruct (Nat.eq_dec i (T d)) as [->|N2]; [rewrite GT; cbn; auto 10|rewrite G; auto 10]. }
  assert (Fl : forall i, i <> T d -> n_flags (g i) = n_flags (h i)).
  { intros i N. destruct (Nat.eq_dec i d) as [->|N2]; [rewrite Gd; auto|rewrite G; auto]. }
  pose proof (hi_nodup _ _ _ _ H) as N. unfold all in N. cbn [concat app] in N. rewrite <- !app_assoc in N. apply NoDup_cons_iff in N. destruct N as (N1 & N2).
  assert (P1 : Permutation (all ((d :: c) :: op) dn sy) (all (c :: op) dn (sy ++ [d]))).
  { unfold all. cbn [concat app]. permc. }
  assert (I1 : forall i, In i (all ((d :: c) :: op) dn sy) <-> In i (all (c :: op) dn (sy ++ [d]))) by (intros; split; apply Permutation_in; auto; symmetry; auto).
  constructor.
  - eapply frameb_trans; [apply (hi_frame _ _ _ _ H)|auto].
  - eapply Permutation_NoDup; [exact P1|apply (hi_nodup _ _ _ _ H)].
  - intros e He. apply (hi_prefix _ _ _ _ H). apply I1; auto.
  - intros c' [<-|Hc].
    + eapply links_ext; [|apply links_app1 in L; exact L]. intros e He. apply Gb'. intros ->. apply in_rev in He. apply N1. apply in_or_app; auto.
    + eapply links_ext; [|apply (hi_open _ _ _ _ H c'); right; auto]. intros e He. apply Gb'. intros ->. apply in_rev in He. apply N1. apply in_or_app; right. apply in_or_app; left. apply in_concat; eauto.
  - intros c' Hc. destruct (hi_done _ _ _ _ H c' Hc) as (D1 & D2).
    assert (X : forall e, In e c' -> e <> d).
    { intros e He ->. apply N1. apply in_or_app; right. apply in_or_app; right. apply in_or_app; left. apply in_concat; eauto. }
    split; [eapply links_ext; [|exact D1]; intros e He; apply Gb'; auto|]. intros a e ->. destruct (Gb e) as (_ & _ & -> & _); eauto. apply X. apply in_or_app; right; left; auto.
  - intros e He. apply in_app_or in He. destruct He as [He|[<-|[]]]; [|rewrite Gd; cbn; auto].
    assert (e <> d) by (intros ->; apply N1; repeat (apply in_or_app; right); auto). destruct (Gb e) as (-> & -> & -> & ->); auto. apply (hi_stray _ _ _ _ H); auto.
  - intros i Hi. assert (Hj : ~ In i (all ((d :: c) :: op) dn sy)) by (intros J; apply Hi; apply I1; auto).
    assert (i <> d) by (intros ->; apply Hj; left; auto). destruct (Gb i) as (-> & -> & -> & ->); auto. apply (hi_rest _ _ _ _ H); auto.
  - intros t. cbn [concat app]. pose proof (hi_refs _ _ _ _ H t) as Rt. cbn [concat app] in Rt. rewrite cnt_cons in Rt.
    destruct (Nat.eq_dec t (T d)) as [->|N3].
    + rewrite Nat.eqb_refl in Rt. rewrite GT. cbn. lia.
    + replace (T d =? t) with false in Rt by (symmetry; apply Nat.eqb_neq; auto). cbn [Nat.add] in Rt. rewrite <- Rt. destruct (Nat.eq_dec t d) as [->|N4]; [rewrite Gd; auto|rewrite G; auto].
  - intros i. pose proof (hi_flags _ _ _ _ H i) as K. unfold same_flags_but_branch in *. destruct (Nat.eq_dec i (T d)) as [->|N3]; [|rewrite Fl; auto].
    rewrite GT. cbn. rewrite Fr. rewrite <- K. unfold h1. rewrite mod_neq by auto. auto.
  - intros t Hin Ht.
    assert (CC : forall e, e <> d -> contrib g e = contrib h e).
    { intros e Ne. destruct (Gb e Ne) as (K1 & K2 & K3 & K4). apply contrib_same; auto. intros q Hq. apply Gb. intros ->. eapply HI_pv_top; eauto. }
    destruct (Nat.eq_dec t (T d)) as [->|N3].
    + unfold branch_flag in *. rewrite GT. cbn [n_flags set_refs set_flags]. rewrite Ff. rewrite (branch_find_local h2 g); auto.
      * rewrite Fs. unfold h1. rewrite mod_neq by auto. cbn. apply (Fm (T d)).
      * intros e He. assert (B : brsame h2 h1) by (apply flagsonly_fields; apply flagsonly_update).
        assert (C2 : contrib h2 e = contrib h1 e).
        { destruct (B e) as (B1 & B2 & _ & B3). apply contrib_same; auto. intros q _. destruct (B q) as (_ & _ & _ & B4). auto. }
        rewrite C2. destruct (Nat.eq_dec e d) as [->|Ne].
        -- rewrite !contrib_type; auto; [unfold h1; rewrite mod_eq; auto|rewrite Gd; auto].
        -- rewrite CC by auto. symmetry. unfold h1. apply contrib_same; rewrite ?mod_neq by auto; auto. intros q Hq. hp.
    + unfold branch_flag. rewrite Fl by auto. rewrite (branch_find_local h g); [|apply (Fm t)|].
      * apply (hi_branch _ _ _ _ H); auto. intros e He. cbn [concat app] in He. destruct He as [<-|He]; auto.
      * intros e He. apply CC. intros ->. apply N3. symmetry. apply HT; auto. destruct (hi_frame _ _ _ _ H t) as (K & _). rewrite <- K. auto.
Qed.

(** An #else or #endif outside of all conditionals. *)
Lemma step_stray : forall h op dn sy d, HI h op dn sy -> isprefix d -> ~ In d (all op dn sy) ->
  exists g, branch_revert d h = Some g /\ HI g op dn (sy ++ [d]).
Proof.
  intros h op dn sy d H Hp Hn. destruct (hi_rest _ _ _ _ H d Hn) as (R1 & R2 & R3 & R4).
  unfold branch_revert. assert (E1 : n_parent (modify h d (set_type T_CPP) d) = None) by (rewrite mod_eq; auto). rewrite E1.
  set (g := modify (modify h d (set_type T_CPP)) d (fun n => set_pv None (set_nx None (set_parent None n)))). exists g. split; auto.
  assert (G : forall i, i <> d -> g i = h i) by (intros i N; unfold g; rewrite !mod_neq by auto; auto).
  assert (Gd : g d = set_pv None (set_nx None (set_parent None (set_type T_CPP (h d))))) by (unfold g; rewrite !mod_eq; auto).
  assert (Gf : forall i, n_flags (g i) = n_flags (h i)) by (intros i; destruct (Nat.eq_dec i d) as [->|N]; [rewrite Gd|rewrite G]; auto).
  assert (Ga : forall i, n_parent (g i) = n_parent (h i)) by (intros i; destruct (Nat.eq_dec i d) as [->|N]; [rewrite Gd|rewrite G]; auto).
  assert (Gr : forall i, n_refs (g i) = n_refs (h i)) by (intros i; destruct (Nat.eq_dec i d) as [->|N]; [rewrite Gd|rewrite G]; auto).
  assert (Fm : frameb h g) by (intros i; destruct (Nat.eq_dec i d) as [->|N]; [rewrite Gd; cbn; auto 10|rewrite G; auto 10]).
  assert (P1 : Permutation (d :: all op dn sy) (all op dn (sy ++ [d]))) by (unfold all; permc).
  assert (I1 : forall i, In i (d :: all op dn sy) <-> In i (all op dn (sy ++ [d]))) by (intros; split; apply Permutation_in; auto; symmetry; auto).
  assert (Ne : forall e, In e (all op dn sy) -> e <> d) by (intros e He ->; auto).
  constructor.
  - eapply frameb_trans; [apply (hi_frame _ _ _ _ H)|auto].
  - eapply Permutation_NoDup; [exact P1|]. constructor; auto. apply (hi_nodup _ _ _ _ H).
  - intros e He. apply I1 in He. destruct He as [<-|He]; auto. apply (hi_prefix _ _ _ _ H); auto.
  - intros c Hc. eapply links_ext; [|apply (hi_open _ _ _ _ H c Hc)]. intros e He. apply in_rev in He. rewrite G; eauto using in_all_op.
  - intros c Hc. destruct (hi_done _ _ _ _ H c Hc) as (D1 & D2). split.
    + eapply links_ext; [|exact D1]. intros e He. rewrite G; eauto using in_all_dn.
    + intros a e ->. rewrite G; eauto. apply Ne. apply (in_all_dn op dn sy (a ++ [e])); auto. apply in_or_app; right; left; auto.
  - intros e He. apply in_app_or in He. destruct He as [He|[<-|[]]]; [|rewrite Gd; cbn; auto]. rewrite G by eauto using in_all_sy. apply (hi_stray _ _ _ _ H); auto.
  - intros i Hi. assert (Hj : ~ In i (d :: all op dn sy)) by (intros J; apply Hi; apply I1; auto).
    rewrite G by (intros ->; apply Hj; left; auto). apply (hi_rest _ _ _ _ H). intros J. apply Hj; right; auto.
  - intros t. rewrite Gr. apply (hi_refs _ _ _ _ H).
  - intros i. unfold same_flags_but_branch. rewrite Gf. apply (hi_flags _ _ _ _ H).
  - intros t Hin Ht. unfold branch_flag. rewrite Gf, (branch_find_local h g); [|apply (Fm t)|].
    + apply (hi_branch _ _ _ _ H); auto.
    + intros e He. destruct (Nat.eq_dec e d) as [->|N].
      * rewrite (contrib_type g), (contrib_pv h); auto. rewrite Gd; auto.
      * apply contrib_same; rewrite ?G; auto.
Qed.

Definition K0 (d : id) : kind := kind_of (n_type (h0 d)).
Variable fuel : nat.
Hypothesis Hfuel : fuel > length (whole h0 toks).

Lemma isprefix_whole : forall d, isprefix d -> In d (whole h0 toks).
Proof. intros d (H1 & H2). eapply whole_pre; eauto. Qed.
Lemma HI_small : forall h op dn sy c, HI h op dn sy -> In c op -> fuel > length c.
Proof.
  intros h op dn sy c H Hc. assert (L : length c <= length (whole h0 toks)); [|lia]. apply NoDup_incl_length.
  - pose proof (hi_nodup _ _ _ _ H) as N. apply nodup_app_l in N. apply in_split in Hc. destruct Hc as (a & b & ->). rewrite concat_app in N. apply nodup_app_r in N. cbn [concat] in N.
    apply nodup_app_l in N. auto.
  - intros d Hd. apply isprefix_whole. apply (hi_prefix _ _ _ _ H). eapply in_all_op; eauto.
Qed.

Definition RI (h : heap) (st : list id) (s : pst) : Prop :=
  HI h (p_open s) (p_done s) (p_stray s) /\ st = map (hd 0) (p_open s) /\ Forall (fun c => c <> []) (p_open s).
Definition pall (s : pst) : list id := all (p_open s) (p_done s) (p_stray s).

Lemma norm_kind : forall t, match kind_of t with
  | KIf => type_normalize t = T_CPP_IF | KElse => type_normalize t = T_CPP_ELSE | KEnd => type_normalize t = T_CPP_ENDIF
  | KNone => isdir t = false end.
Proof. intros t. destruct t; cbn; auto. Qed.

Lemma read_step : forall d h st s, RI h st s -> isprefix d -> ~ In d (pall s) ->
  exists g st', match type_normalize (n_type (h d)) with
                | T_CPP_IF => branch_enter d (T d) h st
                | T_CPP_ELSE => branch_link d (T d) h st
                | T_CPP_ENDIF => branch_leave fuel d (T d) h st
                | _ => Some (h, st)
                end = Some (g, st') /\ RI g st' (pstep K0 d s) /\ incl (pall (pstep K0 d s)) (d :: pall s).
Proof.
  intros d h st s (H & -> & Ne) Hp Hn. destruct s as [op dn sy]. unfold pall in *. cbn [p_open p_done p_stray] in *.
  destruct (hi_rest _ _ _ _ H d Hn) as (R1 & R2 & R3 & R4). pose proof (norm_kind (n_type (h0 d))) as NK. unfold pstep, K0. cbn [p_open p_done p_stray]. rewrite R1.
  destruct (kind_of (n_type (h0 d))) eqn:Ek.
  - rewrite NK. unfold branch_enter. destruct (step_if h op dn sy d H Hp Hn) as (g & -> & Hg & _). exists g. eexists. split; [reflexivity|].
    split; [split; [exact Hg|split; [auto|]]; constructor; auto; discriminate|]. cbn. intros x Hx. exact Hx.
  - rewrite NK. unfold branch_link. destruct op as [|[|br c] op]; cbn [map hd].
    + destruct (step_stray h [] dn sy d H Hp Hn) as (g & -> & Hg). exists g. eexists. split; [reflexivity|]. split; [split; [exact Hg|auto]|].
      cbn. intros x Hx. unfold all in Hx. cbn in Hx. rewrite app_assoc in Hx. apply in_app_or in Hx. destruct Hx as [Hx|[<-|[]]]; [right|left]; auto.
    + inversion Ne; congruence.
    + destruct (step_if h ((br :: c) :: op) dn sy d H Hp Hn) as (g & -> & Hg & _). apply step_join in Hg. eexists. eexists. split; [reflexivity|].
      inversion Ne; subst. split; [split; [exact Hg|split; [auto|constructor; auto; discriminate]]|]. cbn. intros x Hx. exact Hx.
  - rewrite NK. unfold branch_leave, branch_link. destruct op as [|[|br c] op]; cbn [map hd].
    + destruct (step_stray h [] dn sy d H Hp Hn) as (g & -> & Hg). exists g. eexists. split; [destruct fuel; reflexivity|]. split; [split; [exact Hg|auto]|].
      cbn. intros x Hx. unfold all in Hx. cbn in Hx. rewrite app_assoc in Hx. apply in_app_or in Hx. destruct Hx as [Hx|[<-|[]]]; [right|left]; auto.
    + inversion Ne; congruence.
    + destruct (step_if h ((br :: c) :: op) dn sy d H Hp Hn) as (g & -> & Hg & Gn). apply step_join in Hg.
      assert (Hx : d <> br) by (intros ->; apply Hn; left; auto). cbn [hd_error tl].
      change (leave_flags fuel (Some d)) with (leave_flags fuel (hd_error (d :: br :: c))).
      destruct (step_close _ _ _ _ _ fuel Hg) as (g' & -> & Hg').
      * eapply HI_small; [exact Hg|left; auto].
      * intros e r Er. injection Er as <- <-. rewrite mod_eq. cbn [n_nx set_pv]. rewrite mod_neq by auto. rewrite Gn. auto.
      * eexists. eexists. split; [reflexivity|]. inversion Ne; subst. split; [split; [exact Hg'|auto]|]. intros x Hy.
        assert (P1 : Permutation (all op (dn ++ [rev (d :: br :: c)]) sy) (d :: all ((br :: c) :: op) dn sy)).
        { unfold all. rewrite concat_app. cbn [concat]. rewrite app_nil_r. rewrite <- (Permutation_rev (d :: br :: c)). cbn [app]. permc. }
        eapply Permutation_in; [exact P1|exact Hy].
  - exists h. eexists. split; [|split; [split; [exact H|auto]|]].
    + unfold isdir in NK. destruct (type_normalize (n_type (h0 d))); auto; discriminate.
    + intros x Hx. right; auto.
Qed.

Lemma read_prefixes_spec : forall l t h st s, RI h st s -> NoDup l -> (forall d, In d l -> isprefix d /\ T d = t /\ ~ In d (pall s)) ->
  exists g st', read_prefixes fuel l t h st = Some (g, st') /\ RI g st' (prun K0 l s) /\ incl (pall (prun K0 l s)) (pall s ++ l).
Proof.
  induction l as [|d l IH]; intros t h st s H Nl Hl.
  - exists h, st. split; auto. split; auto. rewrite app_nil_r. intros x Hx. auto.
  - destruct (Hl d (or_introl eq_refl)) as (D1 & D2 & D3). subst t. cbn [read_prefixes].
    destruct (read_step d h st s H D1 D3) as (g & st' & -> & Hg & Ig). apply NoDup_cons_iff in Nl. destruct Nl as (N1 & N2).
    destruct (IH (T d) g st' (pstep K0 d s) Hg N2) as (g2 & st2 & -> & Hg2 & Ig2).
    + intros e He. destruct (Hl e (or_intror He)) as (E1 & E2 & E3). split; auto. split; auto. intros K. apply Ig in K. destruct K as [->|K]; auto.
    + exists g2, st2. split; auto. split; auto. intros x Hx. change (prun K0 (d :: l) s) with (prun K0 l (pstep K0 d s)) in Hx. apply Ig2 in Hx. apply in_app_or in Hx.
      apply in_or_app. destruct Hx as [Hx|Hx]; [apply Ig in Hx; destruct Hx as [->|Hx]; [right; left; auto|auto]|right; right; auto].
Qed.

Definition prefs (l : list id) : list id := flat_map (fun t => n_pre (h0 t)) l.
Lemma prefs_nodup : forall l h, NoDup (whole h l) -> NoDup (flat_map (fun t => n_pre (h t)) l).
Proof.
  induction l as [|t l IH]; intros h H; [constructor|]. rewrite whole_cons in H. cbn [flat_map].
  assert (N2 : NoDup (n_pre (h t))) by (apply nodup_app_l in H; auto).
  assert (N3 : NoDup (whole h l)) by (apply nodup_app_r in H; cbn in H; apply NoDup_cons_iff in H; destruct H as (_ & H); apply nodup_app_r in H; auto).
  apply IH in N3. revert H. induction (n_pre (h t)) as [|d ps IHp]; intros H; auto. cbn [app] in *. apply NoDup_cons_iff in H. destruct H as (H1 & H2). apply NoDup_cons_iff in N2. destruct N2 as (N2 & N4). constructor; auto.
  intros K. apply in_app_or in K. destruct K as [K|K]; auto. apply H1. apply in_or_app. right. right. apply in_or_app. right.
  apply in_flat_map in K. destruct K as (u & U1 & U2). eapply whole_pre; eauto.
Qed.
Lemma read_tokens_spec : forall l done h st s, toks = done ++ l -> RI h st s -> incl (pall s) (prefs done) ->
  exists g st', read_tokens fuel l h st = Some (g, st') /\ RI g st' (prun K0 (prefs l) s).
Proof.
  induction l as [|t l IH]; intros done h st s Et H Hs.
  - exists h, st. auto.
  - cbn [read_tokens]. assert (Hin : In t toks) by (rewrite Et; apply in_or_app; right; left; auto).
    destruct H as (H & H'). destruct (hi_frame _ _ _ _ H t) as (Hpre & _). rewrite Hpre.
    pose proof (prefs_nodup _ _ Hnd) as Np. rewrite Et, flat_map_app in Np. fold prefs in Np. cbn [flat_map] in Np.
    destruct (read_prefixes_spec (n_pre (h0 t)) t h st s) as (g & st' & -> & Hg & Ig).
    + split; auto.
    + apply nodup_app_r in Np. apply nodup_app_l in Np. auto.
    + intros d Hd. split; [eapply isprefix_intro; eauto|]. split; [apply HT; auto|]. intros K. apply Hs in K.
      rewrite app_assoc in Np. apply nodup_app_l in Np. eapply nodup_app_disj in Np; eauto.
    + destruct (IH (done ++ [t]) g st' (prun K0 (n_pre (h0 t)) s)) as (g2 & st2 & E2 & Hg2).
      * rewrite <- app_assoc. auto.
      * exact Hg.
      * intros x Hx. apply Ig in Hx. unfold prefs. rewrite flat_map_app. cbn [flat_map]. rewrite app_nil_r. apply in_app_or in Hx. apply in_or_app. destruct Hx; auto.
      * exists g2, st2. split; auto. unfold prefs in *. cbn [flat_map]. rewrite prun_app. auto.
Qed.

Lemma purge_chain_spec : forall c d f h op dn sy, HI h ((d :: c) :: op) dn sy -> f > length c ->
  exists g, purge_chain f d h = Some g /\ HI g op dn (sy ++ d :: c).
Proof.
  induction c as [|e c IH]; intros d f h op dn sy H Hf; (destruct f as [|f]; [lia|]); cbn [purge_chain];
    destruct (step_revert h op dn sy d _ H) as (g & -> & Hg & Pv); rewrite Pv; cbn [hd_error].
  - exists g. split; auto. destruct Hg as [G1 G2 G3 G4 G5 G6 G7 G8 G9 G10]. constructor; auto. intros c Hc. apply G4. right; auto.
  - destruct (IH e f g op dn (sy ++ [d]) Hg) as (g2 & -> & Hg2); [cbn in Hf; lia|]. exists g2. split; auto. rewrite <- app_assoc in Hg2. auto.
Qed.
Lemma branch_purge_spec : forall op h dn sy, HI h op dn sy -> Forall (fun c => c <> []) op ->
  exists g, branch_purge fuel (map (hd 0) op) h = Some g /\ HI g [] dn (sy ++ concat op).
Proof.
  induction op as [|c op IH]; intros h dn sy H Ne.
  - exists h. split; auto. cbn. rewrite app_nil_r. auto.
  - inversion Ne; subst. destruct c as [|d c]; [congruence|]. cbn [map hd branch_purge].
    assert (Hf : fuel > length (d :: c)) by (eapply HI_small; [exact H|left; auto]).
    destruct (purge_chain_spec c d fuel h op dn sy H) as (g & -> & Hg); [cbn in Hf; lia|].
    destruct (IH g dn (sy ++ d :: c) Hg) as (g2 & -> & Hg2); auto. exists g2. split; auto. cbn [concat]. rewrite <- app_assoc in Hg2. auto.
Qed.

Lemma prun_filter : forall K l s, prun K l s = prun K (filter (fun d => match K d with KNone => false | _ => true end) l) s.
Proof.
  intros K l. induction l as [|d l IH]; intros s; auto. change (prun K (d :: l) s) with (prun K l (pstep K d s)). rewrite IH. cbn [filter]. unfold pstep at 1.
  destruct (K d) eqn:E; try reflexivity; match goal with |- _ = prun K (d :: ?l') s => change (prun K (d :: l') s) with (prun K l' (pstep K d s)) end; unfold pstep; rewrite E; auto.
Qed.

(** After reading: the directives in source order, parsed in any way. *)
Lemma tokenize_HI : forall cs un, file K0 (filter (fun d => match K0 d with KNone => false | _ => true end) (prefs toks)) cs un ->
  exists h1 st g un', read_tokens fuel toks h0 [] = Some (h1, st) /\ branch_purge fuel st h1 = Some g /\ HI g [] cs un' /\ Permutation un un'.
Proof.
  intros cs un Hf. destruct (file_run K0 _ _ _ Hf) as (o & s & R & Pm). rewrite <- prun_filter in R.
  destruct (read_tokens_spec toks [] h0 [] (P [] [] [])) as (h1 & st & E1 & H1 & Est & Ne); auto.
  - split; [apply HI_init|cbn; auto].
  - intros x Hx. destruct Hx.
  - rewrite R in *. cbn [p_open p_done p_stray] in *. subst st.
    destruct (branch_purge_spec o h1 cs s H1 Ne) as (g & E2 & Hg). exists h1, (map (hd 0) o), g, (s ++ concat o). auto.
Qed.
End Link.

(** ** The result of tokenization *)
(** The token a prefix belongs to. *)
Definition owner (h : heap) (toks : list id) (d : id) : id :=
  match find (fun t => existsb (Nat.eqb d) (n_pre (h t))) toks with Some t => t | None => 0 end.
Lemma owner_spec : forall h toks t d, NoDup (whole h toks) -> In t toks -> In d (n_pre (h t)) -> owner h toks d = t.
Proof.
  intros h toks t d Hn Ht Hd. unfold owner. destruct (find _ toks) as [u|] eqn:E.
  - apply find_some in E. destruct E as (Hu & E). apply existsb_exists in E. destruct E as (e & He & Ee). apply Nat.eqb_eq in Ee. subst e.
    destruct (Nat.eq_dec u t) as [|N]; auto. exfalso. pose proof (prefs_nodup toks h Hn) as Np.
    clear Hn. revert Ht Hu. induction toks as [|v l IH]; intros Ht Hu; [destruct Ht|]. cbn [flat_map] in Np.
    destruct Ht as [->|Ht], Hu as [->|Hu]; try congruence.
    + eapply (nodup_app_disj _ _ d Np); auto. apply in_flat_map. eauto.
    + eapply (nodup_app_disj _ _ d Np); auto. apply in_flat_map. eauto.
    + apply IH; auto. apply nodup_app_r in Np; auto.
  - exfalso. eapply find_none in E; eauto. assert (existsb (Nat.eqb d) (n_pre (h t)) = true); [|congruence]. apply existsb_exists. exists d. split; auto. apply Nat.eqb_refl.
Qed.

(** [c] is a conditional: every directive knows its neighbours and the token it precedes. *)
Definition linked (h : heap) (own : id -> id) (c : list id) : Prop := forall a d b, c = a ++ d :: b ->
  n_pv (h d) = hd_error (rev a) /\ n_nx (h d) = hd_error b /\ n_parent (h d) = Some (own d).
Lemma links_linked : forall h0 T h c, links h0 T h None c -> (forall a d, c = a ++ [d] -> n_nx (h d) = None) ->
  linked h T c /\ (forall d, In d c -> n_type (h d) = n_type (h0 d)).
Proof.
  intros h0 T h c L E. split; [|intros d Hd; apply (links_in _ _ _ _ _ _ L Hd)].
  intros a d b ->.
  assert (X : forall a pv, links h0 T h pv (a ++ d :: b) -> n_pv (h d) = match rev a with [] => pv | e :: _ => Some e end /\ match b with [] => True | e :: _ => n_nx (h d) = Some e end /\ n_parent (h d) = Some (T d)).
  { induction a0 as [|e a0 IH]; intros pv L0; cbn [app links] in L0; [tauto|]. destruct L0 as (_ & _ & _ & _ & L0). apply IH in L0. cbn [rev]. destruct (rev a0); auto. }
  destruct (X _ _ L) as (X1 & X2 & X3). split; [rewrite X1; destruct (rev a); auto|]. split; auto. destruct b as [|e b]; auto. apply (E a d); auto.
Qed.

(** Number of matched directives in front of a token. *)
Definition matched (cs : list (list id)) (ps : list id) : nat := length (filter (fun d => existsb (Nat.eqb d) (concat cs)) ps).
Lemma cnt_matched : forall T l ps t, NoDup l -> NoDup ps -> (forall d, In d l -> T d = t -> In d ps) -> (forall d, In d ps -> T d = t) ->
  cnt T t l = length (filter (fun d => existsb (Nat.eqb d) l) ps).
Proof.
  intros T l ps t N1 N2 H1 H2. unfold cnt. apply Permutation_length. apply NoDup_Permutation; [apply NoDup_filter; auto|apply NoDup_filter; auto|].
  intros d. rewrite !filter_In. split.
  - intros (A & B). apply Nat.eqb_eq in B. split; auto. apply existsb_exists. exists d. split; auto. apply Nat.eqb_refl.
  - intros (A & B). apply existsb_exists in B. destruct B as (e & B & C). apply Nat.eqb_eq in C. subst e. split; auto. apply Nat.eqb_eq. auto.
Qed.

Definition directives (x : lex) : list id :=
  filter (fun d => match kind_of (n_type (x_heap x d)) with KNone => false | _ => true end) (flat_map (fun t => n_pre (x_heap x t)) (x_toks x)).
(** Tokens as the reader leaves them, before branches are linked. *)
Record unlinked (x : lex) : Prop := {
  ul_nodup : NoDup (whole (x_heap x) (x_toks x));
  ul_bound : forall t, In t (whole (x_heap x) (x_toks x)) -> t < x_next x;
  ul_links : forall i, n_pv (x_heap x i) = None /\ n_nx (x_heap x i) = None /\ n_parent (x_heap x i) = None;
  ul_flag : forall i, N.testbit (n_flags (x_heap x i)) 3 = false;
  ul_refs : forall t, In t (x_toks x) -> n_refs (x_heap x t) >= 1 }.

Lemma nodup_bound : forall l n, NoDup l -> (forall t, In t l -> t < n) -> length l <= n.
Proof.
  intros l n H B. assert (X : length l <= length (seq 0 n)); [|rewrite seq_length in X; auto]. apply NoDup_incl_length; auto. intros t Ht. apply in_seq. apply B in Ht. lia.
Qed.

Lemma tokenize_spec : forall x cs un, unlinked x -> file (fun d => kind_of (n_type (x_heap x d))) (directives x) cs un ->
  exists y, tokenize_branches x = Some y /\ x_toks y = x_toks x /\ x_cur y = x_cur x /\ x_next y = x_next x /\
    (forall c, In c cs -> linked (x_heap y) (owner (x_heap x) (x_toks x)) c) /\ NoDup (concat cs ++ un) /\
    (forall d, In d (concat cs ++ un) -> In (owner (x_heap x) (x_toks x) d) (x_toks x) /\ In d (n_pre (x_heap x (owner (x_heap x) (x_toks x) d)))) /\
    (forall d, In d un -> n_type (x_heap y d) = T_CPP /\ n_pv (x_heap y d) = None /\ n_nx (x_heap y d) = None /\ n_parent (x_heap y d) = None) /\
    (forall i, ~ In i un -> n_type (x_heap y i) = n_type (x_heap x i)) /\
    (forall i, ~ In i (concat cs) -> n_pv (x_heap y i) = None /\ n_nx (x_heap y i) = None /\ n_parent (x_heap y i) = None) /\
    frameb (x_heap x) (x_heap y) /\
    (forall i, same_flags_but_branch (x_heap x) (x_heap y) i) /\ (forall t, In t (x_toks x) -> branch_flag (x_heap y) t) /\
    (forall t, In t (x_toks x) -> n_refs (x_heap y t) = n_refs (x_heap x t) + matched cs (n_pre (x_heap x t))) /\
    (forall i, ~ In i (x_toks x) -> n_refs (x_heap y i) = n_refs (x_heap x i)).
Proof.
  intros x cs un [U1 U2 U3 U4 U5] Hf. set (h0 := x_heap x) in *. set (T := owner h0 (x_toks x)) in *.
  assert (HT : forall t d, In t (x_toks x) -> In d (n_pre (h0 t)) -> T d = t) by (intros; apply owner_spec; auto).
  assert (Hfuel : S (x_next x) > length (whole h0 (x_toks x))) by (pose proof (nodup_bound _ _ U1 U2); lia).
  destruct (tokenize_HI h0 (x_toks x) T U1 HT U3 U4 U5 (S (x_next x)) Hfuel cs un Hf) as (h1 & st & g & un' & E1 & E2 & H & Pm).
  exists (set_heap g x). unfold tokenize_branches. fold h0. rewrite E1, E2. split; auto. split; auto. split; auto. split; auto.
  change (x_heap (set_heap g x)) with g. destruct H as [F1 F2 F3 F4 F5 F6 F7 F8 F9 F10]. unfold all in *. cbn [concat app] in *.
  assert (Iu : forall d, In d un <-> In d un') by (intros; split; apply Permutation_in; auto; symmetry; auto).
  assert (LL : forall c, In c cs -> linked g T c /\ (forall d, In d c -> n_type (g d) = n_type (h0 d))).
  { intros c Hc. destruct (F5 c Hc) as (L1 & L2). apply links_linked; auto. }
  split; [intros c Hc; apply LL; auto|]. split; [eapply Permutation_NoDup; [|exact F2]; apply Permutation_app_head; symmetry; auto|].
  split; [intros d Hd; apply F3; apply in_app_or in Hd; apply in_or_app; destruct Hd; auto; right; apply Iu; auto|].
  split; [intros d Hd; apply F6; apply Iu; auto|]. split.
  { intros i Hi. destruct (in_dec Nat.eq_dec i (concat cs)) as [J|J].
    - apply in_concat in J. destruct J as (c & C1 & C2). destruct (LL c C1) as (_ & LL2). auto.
    - apply F7. intros J2. apply in_app_or in J2. destruct J2 as [J2|J2]; auto. apply Hi. apply Iu; auto. }
  split.
  { intros i Hi. destruct (in_dec Nat.eq_dec i un') as [J|J]; [apply F6; auto|]. apply F7. intros J2. apply in_app_or in J2. destruct J2; auto. }
  split; auto. split; auto. split; [intros t Ht; apply F10; auto|]. split.
  2:{ intros i Hi. rewrite F8. assert (Ez : forall l, (forall d, In d l -> In (T d) (x_toks x)) -> cnt T i l = 0).
      { induction l as [|d l IH]; intros Hl; auto. rewrite cnt_cons, IH by (intros e He; apply Hl; right; auto). destruct (Nat.eqb_spec (T d) i) as [Q|Q]; auto.
        exfalso. apply Hi. rewrite <- Q. apply Hl. left; auto. }
      rewrite Ez; [lia|]. intros d Hd. apply F3. apply in_or_app; auto. }
  intros t Ht. rewrite F8. f_equal. unfold matched. apply cnt_matched.
  - apply nodup_app_l in F2; auto.
  - pose proof (prefs_nodup _ _ U1) as Np. apply in_split in Ht. destruct Ht as (a & b & Eab). rewrite Eab, flat_map_app in Np. apply nodup_app_r in Np. cbn [flat_map] in Np. apply nodup_app_l in Np; auto.
  - intros d Hd <-. apply F3. apply in_or_app; auto.
  - intros d Hd. apply HT; auto.
Qed.
