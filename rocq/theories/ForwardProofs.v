(** Proofs about sorting of forward declarations. *)
From Coq Require Import Permutation Sorted.
From Verif Require Import Base TokenModel UtilModel StreamModel StreamProofs TokListModel TokListProofs ForwardModel.

Lemma nodup_swap : forall (a b c d : list id), NoDup (a ++ b ++ c ++ d) -> NoDup (a ++ c ++ b ++ d).
Proof. intros. eapply Permutation_NoDup; [|exact H]. permc. Qed.
Lemma repos_refl : forall h i, repositioned h h i.
Proof. intros. unfold repositioned. destruct (h i); reflexivity. Qed.
Lemma repos_trans : forall h g k i, repositioned h g i -> repositioned g k i -> repositioned h k i.
Proof. unfold repositioned. intros h g k i A B. rewrite B at 1. rewrite A. reflexivity. Qed.

(** *** Moving the tokens of one declaration *)
Lemma last_cons_snoc : forall (s : list id) a d, last (a :: s) d = last s a.
Proof. induction s as [|b s IH]; intros a d; [reflexivity|]. change (last (a :: b :: s) d) with (last (b :: s) d). rewrite (IH b d), (IH b a). reflexivity. Qed.
Lemma in_last_neq : forall (a : list id) t s d, NoDup (a ++ t :: s) -> s <> [] -> (t =? last s d) = false.
Proof.
  intros a t s d H N. apply Nat.eqb_neq. intros E. apply (nodup_app_r a) in H. inversion H as [|? ? H1 _]; subst. apply H1. destruct (exists_last N) as (s' & z & ->). rewrite last_last. apply in_or_app. right. left. reflexivity.
Qed.
Lemma app_cons1 : forall A (a : list A) x b, a ++ x :: b = (a ++ [x]) ++ b.
Proof. intros. rewrite <- app_assoc. reflexivity. Qed.
Lemma move_behind : forall s t p after q r x fuel, NoDup (x_toks x) -> x_toks x = p ++ after :: q ++ (t :: s) ++ r -> length s < fuel ->
  exists y, move_decl fuel after t (last s t) x = Some (last s t, y) /\ x_toks y = p ++ after :: (t :: s) ++ q ++ r /\
    (forall i, repositioned (x_heap x) (x_heap y) i) /\ x_cur y = x_cur x /\ x_next y = x_next x /\ x_bad y = x_bad x.
Proof.
  induction s as [|t' s IH]; intros t p after q r x fuel ND E L; (destruct fuel as [|fuel]; [cbn [length] in L; lia|]); cbn [move_decl].
  - cbn [last app] in *. rewrite Nat.eqb_refl.
    assert (ND1 : NoDup ((p ++ after :: q) ++ t :: r)) by (rewrite <- app_assoc; cbn [app]; rewrite <- E; exact ND).
    assert (D : del t (x_toks x) = p ++ after :: q ++ r).
    { rewrite E. replace (p ++ after :: q ++ t :: r) with ((p ++ after :: q) ++ t :: r) by (rewrite <- app_assoc; reflexivity). rewrite del_split by (apply (nodup_split _ _ _ ND1)). rewrite <- app_assoc. reflexivity. }
    assert (NE : after <> t) by (intros <-; apply (proj1 (nodup_split _ _ _ ND1)); apply in_or_app; right; left; reflexivity).
    destruct (move_after_spec after t x p (q ++ r) ND D) as (y & Ey & Ty & Ry & _ & _ & C1 & C2 & _ & _ & _ & C3); [rewrite E; apply in_or_app; right; right; apply in_or_app; right; left; reflexivity|exact NE|].
    rewrite Ey. exists y. auto 10.
  - assert (ND1 : NoDup ((p ++ after :: q) ++ t :: t' :: s ++ r)) by (rewrite <- app_assoc; cbn [app] in *; rewrite <- E; exact ND).
    assert (D : del t (x_toks x) = p ++ after :: q ++ (t' :: s) ++ r).
    { rewrite E. replace (p ++ after :: q ++ (t :: t' :: s) ++ r) with ((p ++ after :: q) ++ t :: t' :: s ++ r) by (rewrite <- app_assoc; reflexivity). rewrite del_split by (apply (nodup_split _ _ _ ND1)). rewrite <- app_assoc. reflexivity. }
    assert (NE : after <> t) by (intros <-; apply (proj1 (nodup_split _ _ _ ND1)); apply in_or_app; right; left; reflexivity).
    assert (NX : next_of (x_toks x) t = Some t').
    { rewrite E. replace (p ++ after :: q ++ (t :: t' :: s) ++ r) with ((p ++ after :: q) ++ t :: t' :: s ++ r) by (rewrite <- app_assoc; reflexivity). rewrite next_split by (apply (nodup_split _ _ _ ND1)). reflexivity. }
    destruct (move_after_spec after t x p (q ++ (t' :: s) ++ r) ND D) as (y & Ey & Ty & Ry & _ & _ & C1 & C2 & _ & _ & _ & C3); [rewrite E; apply in_or_app; right; right; apply in_or_app; right; left; reflexivity|exact NE|].
    rewrite NX, Ey. rewrite last_cons_snoc.
    assert (NL : (t =? last s t') = false). { rewrite <- (last_cons_snoc s t' t). replace (t :: t' :: s ++ r) with (t :: (t' :: s) ++ r) in ND1 by reflexivity. eapply (in_last_neq (p ++ after :: q)); [|discriminate]. rewrite app_comm_cons, app_assoc in ND1. apply nodup_app_l in ND1. exact ND1. }
    rewrite NL.
    assert (NDy : NoDup (x_toks y)). { rewrite Ty. eapply Permutation_NoDup; [|exact ND1]. permc. }
    destruct (IH t' (p ++ [after]) t q r y fuel NDy) as (z & Ez & Tz & Rz & C4 & C5 & C6); [rewrite Ty, <- app_assoc; reflexivity|cbn [length] in L; lia|].
    exists z. split; [exact Ez|]. split; [rewrite Tz, <- app_assoc; reflexivity|]. split; [intros i; eapply repos_trans; [apply Ry|apply Rz]|]. rewrite C4, C5, C6. auto.
Qed.
Lemma last_app_ne : forall (a b : list id) d, b <> [] -> last (a ++ b) d = last b d.
Proof. intros a b d N. destruct (exists_last N) as (b' & z & ->). rewrite app_assoc, !last_last. reflexivity. Qed.
Lemma move_ahead : forall s t p d r x fuel, NoDup (x_toks x) -> x_toks x = p ++ (t :: s) ++ d ++ r -> s ++ d <> [] -> length s < fuel ->
  exists y, move_decl fuel (last (s ++ d) t) t (last s t) x = Some (last s t, y) /\ x_toks y = p ++ d ++ (t :: s) ++ r /\
    (forall i, repositioned (x_heap x) (x_heap y) i) /\ x_cur y = x_cur x /\ x_next y = x_next x /\ x_bad y = x_bad x.
Proof.
  induction s as [|t' s IH]; intros t p d r x fuel ND E NN L; (destruct fuel as [|fuel]; [cbn [length] in L; lia|]); cbn [move_decl].
  - cbn [app] in *. destruct (exists_last NN) as (d' & z & ->). rewrite last_last. change (last [] t) with t. rewrite Nat.eqb_refl.
    assert (ND1 : NoDup (p ++ t :: (d' ++ [z]) ++ r)) by (rewrite <- E; exact ND).
    assert (D : del t (x_toks x) = (p ++ d') ++ z :: r). { rewrite E, del_split by (apply (nodup_split _ _ _ ND1)). rewrite <- !app_assoc. reflexivity. }
    assert (NE : z <> t). { intros ->. apply (proj2 (nodup_split _ _ _ ND1)). apply in_or_app. left. apply in_or_app. right. left. reflexivity. }
    destruct (move_after_spec z t x (p ++ d') r ND D) as (y & Ey & Ty & Ry & _ & _ & C1 & C2 & _ & _ & _ & C3); [rewrite E; apply in_or_app; right; left; reflexivity|exact NE|].
    rewrite Ey. exists y. split; [reflexivity|]. split; [rewrite Ty, <- !app_assoc; reflexivity|]. auto.
  - set (after := last ((t' :: s) ++ d) t). destruct (exists_last (l := (t' :: s) ++ d) ltac:(discriminate)) as (m & z & Em). assert (Ea : after = z) by (unfold after; rewrite Em, last_last; reflexivity).
    assert (ND1 : NoDup (p ++ t :: (t' :: s) ++ d ++ r)) by (rewrite E in ND; exact ND).
    assert (D : del t (x_toks x) = (p ++ m) ++ z :: r). { rewrite E. change (p ++ (t :: t' :: s) ++ d ++ r) with (p ++ t :: (t' :: s) ++ d ++ r). rewrite del_split by (apply (nodup_split _ _ _ ND1)). rewrite (app_assoc (t' :: s)), Em, <- !app_assoc. reflexivity. }
    assert (NE : z <> t). { intros ->. apply (proj2 (nodup_split _ _ _ ND1)). rewrite app_assoc, Em, <- app_assoc. apply in_or_app. right. left. reflexivity. }
    assert (NX : next_of (x_toks x) t = Some t') by (rewrite E; change (p ++ (t :: t' :: s) ++ d ++ r) with (p ++ t :: t' :: s ++ d ++ r); rewrite next_split by (apply (nodup_split _ _ _ ND1)); reflexivity).
    destruct (move_after_spec z t x (p ++ m) r ND D) as (y & Ey & Ty & Ry & _ & _ & C1 & C2 & _ & _ & _ & C3); [rewrite E; apply in_or_app; right; left; reflexivity|exact NE|].
    rewrite NX, Ea, Ey. rewrite last_cons_snoc.
    assert (NL : (t =? last s t') = false). { rewrite <- (last_cons_snoc s t' t). eapply (in_last_neq p); [|discriminate]. rewrite app_comm_cons, app_assoc in ND1. apply nodup_app_l in ND1. exact ND1. }
    rewrite NL.
    assert (Ty' : x_toks y = p ++ (t' :: s) ++ (d ++ [t]) ++ r). { rewrite Ty. replace ((p ++ m) ++ z :: t :: r) with (p ++ (m ++ [z]) ++ t :: r) by (rewrite <- !app_assoc; reflexivity). rewrite <- Em, <- !app_assoc. reflexivity. }
    assert (NDy : NoDup (x_toks y)). { rewrite Ty'. eapply Permutation_NoDup; [|exact ND1]. permc. }
    destruct (IH t' p (d ++ [t]) r y fuel NDy Ty') as (w & Ew & Tw & Rw & C4 & C5 & C6); [intros K; apply (f_equal (@length id)) in K; rewrite !app_length in K; cbn [length] in K; lia|cbn [length] in L; lia|].
    assert (EL : last (s ++ d ++ [t]) t' = t) by (rewrite app_assoc; apply last_last). rewrite EL in Ew.
    exists w. split; [exact Ew|]. split; [rewrite Tw, <- !app_assoc; reflexivity|]. split; [intros i; eapply repos_trans; [apply Ry|apply Rw]|]. rewrite C4, C5, C6. auto.
Qed.

(** *** Moving all declarations *)
(** What follows the first declaration: [true] marks the tokens of a declaration to move. *)
Definition flat (l : list (bool * list id)) : list id := flat_map snd l.
Definition fwds (l : list (bool * list id)) : list (list id) := List.map snd (filter fst l).
Definition others (l : list (bool * list id)) : list id := flat_map snd (filter (fun b => negb (fst b)) l).
Lemma flat_app : forall a b, flat (a ++ b) = flat a ++ flat b.
Proof. intros. apply flat_map_app. Qed.
Lemma fwds_app : forall a b, fwds (a ++ b) = fwds a ++ fwds b.
Proof. intros. unfold fwds. rewrite filter_app, map_app. reflexivity. Qed.
Lemma others_app : forall a b, others (a ++ b) = others a ++ others b.
Proof. intros. unfold others. rewrite filter_app, flat_map_app. reflexivity. Qed.
Lemma fwds_split : forall l s, In s (fwds l) -> exists a b, l = a ++ (true, s) :: b.
Proof.
  intros l s H. unfold fwds in H. apply in_map_iff in H. destruct H as ([b s'] & E & H). cbn in E. subst. apply filter_In in H. destruct H as [H Hb]. cbn in Hb. subst. destruct (in_split _ _ H) as (a & c & ->). eauto.
Qed.
Lemma flat_nofwd : forall l, fwds l = [] -> flat l = others l.
Proof. induction l as [|[[] s] l IH]; intros H; [reflexivity|discriminate|]. unfold flat, others in *. cbn. rewrite IH by exact H. reflexivity. Qed.
(** The declaration [d] consists of the tokens [s]. *)
Definition spans (d : decl) (s : list id) : Prop := exists r, s = d_beg d :: r /\ d_semi d = last r (d_beg d).
Definition opt (a : list id) : list (list id) := match a with [] => [] | _ => [a] end.
Lemma move_decls_spec : forall ds todo A D rest p after m x, Forall2 spans ds todo -> NoDup (x_toks x) -> x_toks x = p ++ A ++ D ++ flat rest ->
  Permutation todo (opt A ++ fwds rest) -> A ++ D = m ++ [after] -> (forall a, A = [a] -> D <> []) ->
  exists y, move_decls ds after x = Some y /\ x_toks y = p ++ D ++ concat todo ++ others rest /\
    (forall i, repositioned (x_heap x) (x_heap y) i) /\ x_cur y = x_cur x /\ x_next y = x_next x /\ x_bad y = x_bad x.
Proof.
  induction ds as [|d ds IH]; intros todo A D rest p after m x F ND E P EL N1; inversion F as [|? s ? todo' S F']; subst; cbn [move_decls].
  - apply Permutation_nil in P. apply app_eq_nil in P. destruct P as [PA PF]. destruct A; [|discriminate]. cbn [app] in *. exists x. rewrite (flat_nofwd _ PF) in E. cbn [concat app]. auto 10 using repos_refl.
  - destruct S as (r & -> & ES). set (t := d_beg d) in *.
    assert (IN : In (t :: r) (opt A ++ fwds rest)) by (eapply Permutation_in; [exact P|left; reflexivity]). apply in_app_or in IN. destruct IN as [IN|IN].
    + destruct A as [|a A']; [destruct IN|]. destruct IN as [IN|[]]. inversion IN; subst a A'. cbn [opt app] in P. apply Permutation_cons_inv in P.
      assert (RD : r ++ D <> []) by (destruct r; [cbn; apply (N1 t); reflexivity|discriminate]).
      assert (EA : after = last (r ++ D) t). { cbn [app] in EL. destruct m as [|m0 m]; cbn [app] in EL; inversion EL as [[E1 E2]]; [congruence|]. rewrite E2, last_last. reflexivity. }
      destruct (move_ahead r t p D (flat rest) x (length (x_toks x)) ND E RD) as (y & Ey & Ty & Ry & C1 & C2 & C3).
      { rewrite E, !app_length. cbn [length]. lia. }
      rewrite <- EA in Ey. rewrite ES, Ey.
      assert (NDy : NoDup (x_toks y)) by (rewrite Ty; apply nodup_swap; rewrite <- E; exact ND).
      destruct (exists_last (l := t :: r) ltac:(discriminate)) as (r' & z & Ez).
      assert (Elast : last r t = z) by (rewrite <- (last_cons_snoc r t t), Ez, last_last; reflexivity).
      destruct (IH todo' [] (D ++ t :: r) rest p (last r t) (D ++ r') y F' NDy) as (w & Ew & Tw & Rw & C4 & C5 & C6).
      * rewrite Ty. cbn [app]. rewrite <- !app_assoc. reflexivity.
      * exact P.
      * cbn [app]. rewrite Ez, Elast, app_assoc. reflexivity.
      * discriminate.
      * exists w. split; [exact Ew|]. split; [rewrite Tw; cbn [concat app]; rewrite <- !app_assoc; reflexivity|]. split; [intros i; eapply repos_trans; [apply Ry|apply Rw]|]. rewrite C4, C5, C6. auto.
    + destruct (fwds_split _ _ IN) as (r1 & r2 & ->). rewrite fwds_app in P. change (fwds ((true, t :: r) :: r2)) with ((t :: r) :: fwds r2) in P. rewrite app_assoc in P. apply Permutation_cons_app_inv in P. rewrite <- app_assoc, <- fwds_app in P.
      rewrite flat_app in E. change (flat ((true, t :: r) :: r2)) with ((t :: r) ++ flat r2) in E.
      assert (E' : x_toks x = (p ++ m) ++ after :: flat r1 ++ (t :: r) ++ flat r2).
      { rewrite E. rewrite (app_assoc A), EL, <- !app_assoc. reflexivity. }
      destruct (move_behind r t (p ++ m) after (flat r1) (flat r2) x (length (x_toks x)) ND E') as (y & Ey & Ty & Ry & C1 & C2 & C3).
      { rewrite E', !app_length. cbn [length]. rewrite !app_length. cbn [length]. lia. }
      rewrite ES, Ey.
      assert (Ty' : x_toks y = p ++ A ++ (D ++ t :: r) ++ flat (r1 ++ r2)).
      { rewrite Ty, flat_app. rewrite <- app_assoc. f_equal. rewrite <- (app_assoc D), (app_assoc A D), EL, <- !app_assoc. reflexivity. }
      assert (NDy : NoDup (x_toks y)). { eapply Permutation_NoDup; [|exact ND]. rewrite E', Ty. permc. }
      destruct (exists_last (l := t :: r) ltac:(discriminate)) as (r' & z & Ez).
      assert (Elast : last r t = z) by (rewrite <- (last_cons_snoc r t t), Ez, last_last; reflexivity).
      destruct (IH todo' A (D ++ t :: r) (r1 ++ r2) p (last r t) (A ++ D ++ r') y F' NDy Ty' P) as (w & Ew & Tw & Rw & C4 & C5 & C6).
      * rewrite Ez, Elast, <- !app_assoc. reflexivity.
      * intros a _. destruct D; discriminate.
      * exists w. split; [exact Ew|]. split; [rewrite Tw, !others_app; cbn [concat app]; rewrite <- !app_assoc; reflexivity|]. split; [intros i; eapply repos_trans; [apply Ry|apply Rw]|]. rewrite C4, C5, C6. auto.
Qed.

(** *** Moving trivia *)
Lemma move_if_frame : forall it src dst ty h i, move_suffixes_if_loop it src dst ty h i = set_suf (n_suf (move_suffixes_if_loop it src dst ty h i)) (h i).
Proof.
  induction it as [|s it IH]; intros src dst ty h i; cbn [move_suffixes_if_loop]; [destruct (h i); reflexivity|]. destruct (ttype_eqb (n_type (h s)) ty); [|apply IH].
  rewrite IH at 1. set (g := n_suf (move_suffixes_if_loop _ _ _ _ _ i)). clearbody g.
  assert (K : forall k j f, modify k j (fun n => set_suf (f n) n) i = set_suf (n_suf (modify k j (fun n => set_suf (f n) n) i)) (k i)).
  { intros k j f. destruct (Nat.eq_dec i j) as [->|N]; [rewrite mod_eq; reflexivity|rewrite mod_neq by exact N; destruct (k i); reflexivity]. }
  rewrite (K _ dst), (K _ src). reflexivity.
Qed.

(** Tokens, prefixes and suffixes are distinct, directives refer to the token they precede and
    hold a reference to it; [E] counts the other references. *)
Record sound (E : id -> nat) (x : lex) : Prop := {
  so_nodup : NoDup (whole (x_heap x) (x_toks x));
  so_parent : forall t d, In t (x_toks x) -> In d (n_pre (x_heap x t)) -> isdird (x_heap x) d = true -> n_parent (x_heap x d) = Some t;
  so_refs : forall t, In t (x_toks x) -> n_refs (x_heap x t) = 1 + ndirs (x_heap x) (n_pre (x_heap x t)) + E t
}.
(** Text, type and flags, apart from the one which is derived from the prefixes. *)
Definition alike (h g : heap) : Prop := forall i,
  n_type (g i) = n_type (h i) /\ n_str (g i) = n_str (h i) /\ N.ldiff (n_flags (g i)) F_BRANCH = N.ldiff (n_flags (h i)) F_BRANCH.
Lemma alike_refl : forall h, alike h h.
Proof. intros h i. auto. Qed.
Lemma alike_trans : forall a b c, alike a b -> alike b c -> alike a c.
Proof. intros a b c A B i. destruct (A i) as (A1 & A2 & A3), (B i) as (B1 & B2 & B3). repeat split; congruence. Qed.
Lemma flat_map_two : forall (f g : id -> list id) l a b, NoDup l -> In a l -> In b l -> a <> b ->
  (forall t, t <> a -> t <> b -> g t = f t) -> Permutation (g a ++ g b) (f a ++ f b) -> Permutation (flat_map g l) (flat_map f l).
Proof.
  intros f g l a b ND Ia Ib N O P. destruct (in_split _ _ Ia) as (l1 & l2 & ->).
  assert (Ib' : In b (l1 ++ l2)). { apply in_app_or in Ib. apply in_or_app. destruct Ib as [Ib|[Ib|Ib]]; [left; exact Ib|congruence|right; exact Ib]. }
  destruct (in_split _ _ Ib') as (m1 & m2 & Em). assert (PL : Permutation (l1 ++ a :: l2) (a :: b :: m1 ++ m2)).
  { etransitivity; [symmetry; apply Permutation_middle|]. rewrite Em. apply perm_skip. symmetry. apply Permutation_middle. }
  rewrite (Permutation_flat_map g PL), (Permutation_flat_map f PL). cbn [flat_map]. rewrite !app_assoc. apply Permutation_app; [exact P|].
  pose proof (Permutation_NoDup PL ND) as ND'. inversion ND' as [|? ? N1 ND2]; subst. inversion ND2 as [|? ? N2 _]; subst.
  assert (K : forall l, ~ In a l -> ~ In b l -> flat_map g l = flat_map f l).
  { induction l as [|t l IH]; intros A B; [reflexivity|]. cbn. rewrite O, IH; [reflexivity|intros C; apply A; right; exact C|intros C; apply B; right; exact C| |]; intros ->; [apply A|apply B]; left; reflexivity. }
  rewrite K; [reflexivity| |exact N2]. intros C. apply N1. right. exact C.
Qed.
Lemma heads_spec : forall E x b0 b1, sound E x -> In b0 (x_toks x) -> In b1 (x_toks x) ->
  exists g, (if b0 =? b1 then Some (x_heap x) else move_prefixes b0 b1 (x_heap x)) = Some g /\ sound E (set_heap g x) /\ alike (x_heap x) g /\
    Permutation (whole g (x_toks x)) (whole (x_heap x) (x_toks x)) /\ (forall i, n_suf (g i) = n_suf (x_heap x i)) /\
    (forall t, n_pre (g t) = if b0 =? b1 then n_pre (x_heap x t) else if t =? b0 then [] else if t =? b1 then n_pre (x_heap x b0) ++ n_pre (x_heap x b1) else n_pre (x_heap x t)).
Proof.
  intros E x b0 b1 S I0 I1. destruct (Nat.eqb_spec b0 b1) as [->|N].
  - exists (x_heap x). split; [reflexivity|]. split; [destruct x; exact S|]. auto using alike_refl, Permutation_refl.
  - destruct (whole_disj _ _ _ (so_nodup _ _ S) I0) as (D1 & D2 & D3 & D4 & D5). destruct (whole_disj _ _ _ (so_nodup _ _ S) I1) as (F1 & F2 & F3 & F4 & F5).
    destruct (move_prefixes_spec b0 b1 (x_heap x) N D1 (proj1 (D3 b0 I0)) (proj1 (D3 b1 I1))) as (g & Eg & M).
    { intros d A B. apply (so_parent _ _ S); assumption. } { rewrite (so_refs _ _ S b0 I0). lia. }
    pose proof (whole_toks _ _ (so_nodup _ _ S)) as NT.
    exists g. split; [exact Eg|].
    assert (TY : forall i, n_type (g i) = n_type (x_heap x i)) by (intros i; apply (mv_stable _ _ _ _ _ M i)).
    assert (P0 : n_pre (g b0) = []). { pose proof (mv_src _ _ _ _ _ M) as K. apply (f_equal (@length id)) in K. rewrite app_length in K. destruct (n_pre (g b0)); [reflexivity|]. cbn [length] in K. lia. }
    assert (P1 : n_pre (g b1) = n_pre (x_heap x b0) ++ n_pre (x_heap x b1)) by (apply (mv_dst _ _ _ _ _ M)).
    assert (PO := mv_pre _ _ _ _ _ M).
    assert (SU : forall i, n_suf (g i) = n_suf (x_heap x i)) by (intros i; apply (mv_stable _ _ _ _ _ M i)).
    assert (AL : alike (x_heap x) g). { intros i. split; [apply TY|]. split; [apply (mv_stable _ _ _ _ _ M i)|]. apply (mv_other _ _ _ _ _ M i). }
    assert (PW : Permutation (whole g (x_toks x)) (whole (x_heap x) (x_toks x))).
    { apply (flat_map_two _ _ _ b0 b1); auto.
      - intros t A B. rewrite PO, SU by assumption. reflexivity.
      - rewrite P0, P1, !SU. permc. }
    split; [|split; [exact AL|split; [exact PW|split; [exact SU|]]]].
    + constructor; cbn [x_heap x_toks set_heap].
      * eapply Permutation_NoDup; [symmetry; exact PW|apply (so_nodup _ _ S)].
      * intros t d It Id DD. rewrite (mv_parent _ _ _ _ _ M). rewrite (isdird_ext (x_heap x) g) in DD by exact TY. rewrite DD, andb_true_r.
        destruct (existsb (Nat.eqb d) (n_pre (x_heap x b0))) eqn:EX.
        -- apply existsb_exists in EX. destruct EX as (d' & Hd' & Ed). apply Nat.eqb_eq in Ed. subst d'. destruct (Nat.eq_dec t b1) as [->|Nt]; [reflexivity|]. exfalso.
           destruct (Nat.eq_dec t b0) as [->|Nt0]; [rewrite P0 in Id; destruct Id|]. rewrite PO in Id by assumption. apply (D5 t d It Nt0); apply in_or_app; left; assumption.
        -- assert (ND : ~ In d (n_pre (x_heap x b0))). { intros K. assert (existsb (Nat.eqb d) (n_pre (x_heap x b0)) = true) by (apply existsb_exists; exists d; split; [exact K|apply Nat.eqb_refl]). congruence. }
           destruct (Nat.eq_dec t b0) as [->|Nt0]; [rewrite P0 in Id; destruct Id|]. destruct (Nat.eq_dec t b1) as [->|Nt].
           ++ rewrite P1 in Id. apply in_app_or in Id. destruct Id as [Id|Id]; [contradiction|]. apply (so_parent _ _ S); assumption.
           ++ rewrite PO in Id by assumption. apply (so_parent _ _ S); assumption.
      * intros t It. rewrite (ndirs_ext (x_heap x) g) by exact TY. destruct (Nat.eq_dec t b0) as [->|Nt0]; [|destruct (Nat.eq_dec t b1) as [->|Nt]].
        -- rewrite P0. pose proof (mv_refs_src _ _ _ _ _ M) as R. rewrite (so_refs _ _ S b0 I0) in R. cbn. lia.
        -- rewrite P1, (mv_refs_dst _ _ _ _ _ M), (so_refs _ _ S b1 I1). unfold ndirs. rewrite filter_app, app_length. lia.
        -- rewrite PO, (mv_refs _ _ _ _ _ M) by assumption. apply (so_refs _ _ S t It).
    + intros t. destruct (Nat.eqb_spec t b0) as [->|Nt0]; [exact P0|]. destruct (Nat.eqb_spec t b1) as [->|Nt]; [exact P1|]. apply PO; assumption.
Qed.
Definition is_space (h : heap) (s : id) : bool := ttype_eqb (n_type (h s)) T_SPACE.
Lemma tails_loop : forall ty src dst it k h, src <> dst -> NoDup (k ++ it) -> n_suf (h src) = k ++ it ->
  let g := move_suffixes_if_loop it src dst ty h in
  n_suf (g src) = k ++ filter (fun s => negb (ttype_eqb (n_type (h s)) ty)) it /\ n_suf (g dst) = n_suf (h dst) ++ filter (fun s => ttype_eqb (n_type (h s)) ty) it /\
  (forall i, i <> src -> i <> dst -> g i = h i).
Proof.
  intros ty src dst it. induction it as [|s it IH]; intros k h SD ND E; cbn zeta; cbn [move_suffixes_if_loop filter].
  - rewrite E, !app_nil_r. repeat split; reflexivity.
  - destruct (ttype_eqb (n_type (h s)) ty) eqn:T.
    + set (h1 := modify h src (fun n => set_suf (del s (n_suf n)) n)). set (h2 := modify h1 dst (fun n => set_suf (n_suf n ++ [s]) n)).
      assert (SM : forall i, n_type (h2 i) = n_type (h i)).
      { intros i. unfold h2, h1. destruct (Nat.eq_dec i dst) as [->|N1]; [rewrite mod_eq, mod_neq by auto; auto|]. rewrite mod_neq by exact N1. destruct (Nat.eq_dec i src) as [->|N2]; [rewrite mod_eq; auto|rewrite mod_neq by exact N2; auto]. }
      assert (Es : n_suf (h2 src) = k ++ it). { unfold h2, h1. rewrite mod_neq, mod_eq by auto. cbn [set_suf n_suf]. rewrite E. apply del_split. apply (nodup_split _ _ _ ND). }
      assert (Ed : n_suf (h2 dst) = n_suf (h dst) ++ [s]) by (unfold h2, h1; rewrite mod_eq, mod_neq by auto; reflexivity).
      assert (ND' : NoDup (k ++ it)) by (apply NoDup_remove_1 in ND; exact ND).
      destruct (IH k h2 SD ND' Es) as (A & B & C). cbn zeta in *.
      rewrite (filter_ext _ (fun s => negb (ttype_eqb (n_type (h s)) ty))) in A by (intros; rewrite SM; reflexivity). rewrite (filter_ext _ (fun s => ttype_eqb (n_type (h s)) ty)) in B by (intros; rewrite SM; reflexivity).
      split; [exact A|]. split; [rewrite B, Ed, <- app_assoc; reflexivity|].
      intros i N1 N2. rewrite C by assumption. unfold h2, h1. rewrite !mod_neq by assumption. reflexivity.
    + destruct (IH (k ++ [s]) h SD ltac:(rewrite <- app_assoc; exact ND) ltac:(rewrite <- app_assoc; exact E)) as (A & B & C). cbn zeta in *. split; [cbn [negb]; rewrite A, <- app_assoc; reflexivity|]. auto.
Qed.
Lemma filter_perm : forall (f : id -> bool) l, Permutation (filter (fun t => negb (f t)) l ++ filter f l) l.
Proof.
  intros f. induction l as [|z l IH]; cbn [filter app]; [constructor|]. destruct (f z); cbn [negb app].
  - symmetry. etransitivity; [|apply Permutation_middle]. apply perm_skip. symmetry. exact IH.
  - apply perm_skip. exact IH.
Qed.
Lemma tails_spec : forall E x e0 e1, sound E x -> In e0 (x_toks x) -> In e1 (x_toks x) ->
  let g := if e0 =? e1 then x_heap x else move_suffixes_if e0 e1 T_SPACE (x_heap x) in
  sound E (set_heap g x) /\ alike (x_heap x) g /\ Permutation (whole g (x_toks x)) (whole (x_heap x) (x_toks x)) /\ (forall i, n_pre (g i) = n_pre (x_heap x i)) /\
  (forall t, n_suf (g t) = if e0 =? e1 then n_suf (x_heap x t) else if t =? e0 then filter (fun s => negb (is_space (x_heap x) s)) (n_suf (x_heap x e0))
     else if t =? e1 then n_suf (x_heap x e1) ++ filter (is_space (x_heap x)) (n_suf (x_heap x e0)) else n_suf (x_heap x t)).
Proof.
  intros E x e0 e1 S I0 I1 g. unfold g. clear g. destruct (Nat.eqb_spec e0 e1) as [->|N].
  - split; [destruct x; exact S|]. auto using alike_refl, Permutation_refl.
  - destruct (whole_disj _ _ _ (so_nodup _ _ S) I0) as (D1 & D2 & D3 & D4 & D5). set (g := move_suffixes_if e0 e1 T_SPACE (x_heap x)).
    destruct (tails_loop T_SPACE e0 e1 (n_suf (x_heap x e0)) [] (x_heap x) N D2 eq_refl) as (A & B & C). change (move_suffixes_if_loop (n_suf (x_heap x e0)) e0 e1 T_SPACE (x_heap x)) with g in A, B, C. cbn [app] in A.
    assert (FR : forall i, g i = set_suf (n_suf (g i)) (x_heap x i)) by (intros i; apply move_if_frame).
    assert (PR : forall i, n_pre (g i) = n_pre (x_heap x i)) by (intros i; rewrite FR; reflexivity).
    assert (TY : forall i, n_type (g i) = n_type (x_heap x i)) by (intros i; rewrite FR; reflexivity).
    assert (AL : alike (x_heap x) g) by (intros i; rewrite FR; repeat split; reflexivity).
    assert (PW : Permutation (whole g (x_toks x)) (whole (x_heap x) (x_toks x))).
    { apply (flat_map_two _ _ _ e0 e1); auto.
      - exact (whole_toks _ _ (so_nodup _ _ S)).
      - intros t X Y. rewrite C by assumption. reflexivity.
      - rewrite A, B, !PR. pose proof (filter_perm (fun s => ttype_eqb (n_type (x_heap x s)) T_SPACE) (n_suf (x_heap x e0))) as FP. set (f0 := filter _ _) in *. set (f1 := filter _ _) in *. clearbody f0 f1. etransitivity; [|apply Permutation_app; [apply Permutation_app_head, perm_skip, FP|reflexivity]]. permc. }
    split; [|split; [exact AL|split; [exact PW|split; [exact PR|]]]].
    + constructor; cbn [x_heap x_toks set_heap].
      * eapply Permutation_NoDup; [symmetry; exact PW|apply (so_nodup _ _ S)].
      * intros t d It Id DD. rewrite PR in Id. rewrite (isdird_ext (x_heap x) g) in DD by exact TY. replace (n_parent (g d)) with (n_parent (x_heap x d)) by (rewrite FR; reflexivity). apply (so_parent _ _ S); assumption.
      * intros t It. rewrite (ndirs_ext (x_heap x) g), PR by exact TY. replace (n_refs (g t)) with (n_refs (x_heap x t)) by (rewrite FR; reflexivity). apply (so_refs _ _ S t It).
    + intros t. destruct (Nat.eqb_spec t e0) as [->|Nt0]; [exact A|]. destruct (Nat.eqb_spec t e1) as [->|Nt]; [exact B|]. rewrite C by assumption. reflexivity.
Qed.
Lemma repos_fields : forall h g i, repositioned h g i -> n_pre (g i) = n_pre (h i) /\ n_suf (g i) = n_suf (h i) /\ n_type (g i) = n_type (h i) /\ n_str (g i) = n_str (h i) /\ n_flags (g i) = n_flags (h i) /\ n_refs (g i) = n_refs (h i) /\ n_parent (g i) = n_parent (h i).
Proof. unfold repositioned. intros h g i H. rewrite H. auto 10. Qed.
Lemma sound_moved : forall E x y, sound E x -> (forall i, repositioned (x_heap x) (x_heap y) i) -> Permutation (x_toks y) (x_toks x) ->
  sound E y /\ Permutation (whole (x_heap y) (x_toks y)) (whole (x_heap x) (x_toks x)) /\ alike (x_heap x) (x_heap y).
Proof.
  intros E x y S R P. assert (TY : forall i, n_type (x_heap y i) = n_type (x_heap x i)) by (intros i; apply (repos_fields _ _ _ (R i))).
  assert (PW : Permutation (whole (x_heap y) (x_toks y)) (whole (x_heap x) (x_toks x))).
  { rewrite (whole_ext (x_heap x) (x_heap y)) by (intros t _; destruct (repos_fields _ _ _ (R t)) as (A & B & _); auto). apply Permutation_flat_map, P. }
  split; [|split; [exact PW|intros i; destruct (repos_fields _ _ _ (R i)) as (_ & _ & A & B & C & _); rewrite C; auto]].
  constructor.
  - eapply Permutation_NoDup; [symmetry; exact PW|apply (so_nodup _ _ S)].
  - intros t d It Id DD. destruct (repos_fields _ _ _ (R t)) as (A & _). destruct (repos_fields _ _ _ (R d)) as (_ & _ & _ & _ & _ & _ & F). rewrite A in Id. rewrite F. rewrite (isdird_ext (x_heap x)) in DD by exact TY. apply (so_parent _ _ S); auto. eapply Permutation_in; eauto.
  - intros t It. destruct (repos_fields _ _ _ (R t)) as (A & _ & _ & _ & _ & F & _). rewrite A, F, (ndirs_ext (x_heap x)) by exact TY. apply (so_refs _ _ S). eapply Permutation_in; eauto.
Qed.
