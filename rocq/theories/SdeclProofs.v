(** Proofs about the grouping of local variables: what each operation on the tokens does. *)
From Coq Require Import Permutation Sorted.
From Verif Require Import Base TokenModel UtilModel StreamModel StreamProofs TokListModel TokListProofs StaticModel ForwardProofs SdeclModel.

Definition comment (h : heap) (t : id) : bool := ttype_eqb (n_type (h t)) T_COMMENT.
Definition comments (h : heap) (t : id) : list id := filter (comment h) (n_suf (h t)).
(** Nothing in front of the token, no comment behind it. *)
Definition bare (h : heap) (t : id) : Prop := n_pre (h t) = [] /\ comments h t = [].
(** In front of tokens there are comments and directives only. *)
Definition tidy (x : lex) : Prop := forall t d, In t (x_toks x) -> In d (n_pre (x_heap x t)) -> comment (x_heap x) d = true \/ has_flag (n_flags (x_heap x d)) F_CPP = true.

Lemma moveable_bare : forall x t, tidy x -> In t (x_toks x) -> is_moveable (x_heap x) t = true <-> bare (x_heap x) t.
Proof.
  intros x t T I. unfold is_moveable, bare. rewrite andb_true_iff. split; intros [A B]; split.
  - destruct (n_pre (x_heap x t)) as [|d l] eqn:E; [reflexivity|]. cbn [forallb] in A. apply andb_true_iff in A. destruct A as [A _].
    destruct (T t d I) as [K|K]; [rewrite E; left; reflexivity| |]; unfold comment in K; rewrite K in A; cbn in A; try discriminate. rewrite orb_true_r in A. discriminate.
  - unfold comments. apply negb_true_iff in B. clear -B. induction (n_suf (x_heap x t)) as [|s l IH]; [reflexivity|]. cbn [existsb filter] in *. apply orb_false_iff in B. destruct B as [B1 B2]. unfold comment at 1. rewrite B1. auto.
  - rewrite A. reflexivity.
  - apply negb_true_iff. unfold comments in B. clear -B. induction (n_suf (x_heap x t)) as [|s l IH]; [reflexivity|]. cbn [existsb filter] in *. unfold comment at 1 in B. destruct (ttype_eqb _ _); [discriminate|]. auto.
Qed.

(** What is kept of tokens. *)
Definition same (h g : heap) (i : id) : Prop := n_type (g i) = n_type (h i) /\ n_str (g i) = n_str (h i) /\ n_pre (g i) = n_pre (h i) /\ comments g i = comments h i /\
  has_flag (n_flags (g i)) F_CPP = has_flag (n_flags (h i)) F_CPP.
Definition keeps (x y : lex) : Prop := x_next x <= x_next y /\ forall i, i < x_next x -> same (x_heap x) (x_heap y) i.
Lemma keeps_refl : forall x, keeps x x.
Proof. intros x. split; [lia|]. repeat split. Qed.
Lemma keeps_trans : forall x y z, keeps x y -> keeps y z -> keeps x z.
Proof.
  intros x y z [A B] [C D]. split; [lia|]. intros i L. destruct (B i L) as (B1 & B2 & B3 & B4 & B5). destruct (D i) as (D1 & D2 & D3 & D4 & D5); [lia|].
  repeat split; congruence.
Qed.
Lemma keeps_bare : forall x y t, keeps x y -> t < x_next x -> bare (x_heap x) t -> bare (x_heap y) t.
Proof. intros x y t [_ K] L [A B]. destruct (K t L) as (_ & _ & C & D & _). split; congruence. Qed.

Definition eofy (h : heap) (l : list id) : Prop := exists body e, l = body ++ [e] /\ n_type (h e) = T_EOF /\ Forall (fun t => n_type (h t) <> T_EOF) body.
Lemma eofy_ins : forall h p a t q, eofy h (p ++ a :: q) -> n_type (h a) <> T_EOF -> n_type (h t) <> T_EOF -> eofy h (p ++ a :: t :: q).
Proof.
  intros h p a t q (b & e & E & Te & F) Na Nt. destruct q as [|u q] using rev_ind; [apply app_inj_tail in E; destruct E as [_ ->]; contradiction|]. clear IHq.
  rewrite app_comm_cons, app_assoc in E. apply app_inj_tail in E. destruct E as [E ->]. exists (p ++ a :: t :: q), e. rewrite <- app_assoc. cbn [app]. split; [reflexivity|]. split; [exact Te|].
  subst b. apply Forall_app in F. destruct F as [F1 F2]. inv F2. apply Forall_app. split; [exact F1|]. repeat constructor; assumption.
Qed.
Lemma eofy_del : forall h p t q, eofy h (p ++ t :: q) -> n_type (h t) <> T_EOF -> eofy h (p ++ q).
Proof.
  intros h p t q (b & e & E & Te & F) Nt. destruct q as [|u q] using rev_ind; [apply app_inj_tail in E; destruct E as [_ ->]; contradiction|]. clear IHq.
  rewrite app_comm_cons, app_assoc in E. apply app_inj_tail in E. destruct E as [E ->]. exists (p ++ q), e. rewrite <- app_assoc. split; [reflexivity|]. split; [exact Te|].
  subst b. apply Forall_app in F. destruct F as [F1 F2]. inv F2. apply Forall_app. auto.
Qed.
Lemma eofy_ext : forall h g l, (forall t, In t l -> n_type (g t) = n_type (h t)) -> eofy h l -> eofy g l.
Proof.
  intros h g l H (b & e & E & Te & F). exists b, e. subst l. split; [reflexivity|]. split; [rewrite H; [exact Te|apply in_or_app; right; left; reflexivity]|].
  rewrite Forall_forall in *. intros t I. rewrite H; [auto|apply in_or_app; left; exact I].
Qed.
Lemma eofy_next : forall h p t q, eofy h (p ++ t :: q) -> n_type (h t) <> T_EOF -> exists u r, q = u :: r.
Proof. intros h p t q (b & e & E & Te & F) N. destruct q as [|u r]; [apply app_inj_tail in E; destruct E as [_ ->]; contradiction|eauto]. Qed.

(** The state of the stream: tokens, prefixes and suffixes are distinct and in use. *)
Record ready (E : id -> nat) (x : lex) : Prop := {
  re_sound : sound E x;
  re_eof : eofy (x_heap x) (x_toks x);
  re_tidy : tidy x;
  re_old : forall i, In i (whole (x_heap x) (x_toks x)) -> i < x_next x;
  re_new : forall i, x_next x <= i -> E i = 0;
  re_suf : forall i s, i < x_next x -> In s (n_suf (x_heap x i)) -> s < x_next x
}.
Lemma ready_wfl : forall E x, ready E x -> wfl E x.
Proof. intros E x R. destruct (re_sound _ _ R). constructor; auto. exact (re_eof _ _ R). Qed.
Lemma ready_nodup : forall E x, ready E x -> NoDup (x_toks x).
Proof. intros E x R. apply (whole_toks (x_heap x)). apply (so_nodup _ _ (re_sound _ _ R)). Qed.
Lemma ready_lt : forall E x t, ready E x -> In t (x_toks x) -> t < x_next x.
Proof. intros E x t R I. apply (re_old _ _ R). apply whole_in, I. Qed.

Lemma cpp_alike : forall f g, N.ldiff g F_BRANCH = N.ldiff f F_BRANCH -> has_flag g F_CPP = has_flag f F_CPP.
Proof.
  intros f g H. unfold has_flag. f_equal. f_equal.
  assert (K : forall f, N.land f F_CPP = N.land (N.ldiff f F_BRANCH) F_CPP).
  { intros k. apply N.bits_inj. intros n. rewrite !N.land_spec, N.ldiff_spec. assert (Z : N.testbit (N.land F_BRANCH F_CPP) n = false) by apply N.bits_0. rewrite N.land_spec in Z. destruct (N.testbit k n), (N.testbit F_BRANCH n), (N.testbit F_CPP n); try reflexivity; discriminate. }
  rewrite (K f), (K g), H. reflexivity.
Qed.

Lemma filter_ext' : forall (f g : id -> bool) l, (forall a, f a = g a) -> filter f l = filter g l.
Proof. intros f g l H. induction l as [|a l IH]; [reflexivity|]. cbn. rewrite H, IH. reflexivity. Qed.

Lemma remove_bare : forall E x a t r, ready E x -> x_toks x = a ++ t :: r -> bare (x_heap x) t -> tyof x t <> T_EOF ->
  exists y, remove t x = Some y /\ ready E y /\ keeps x y /\ x_next y = x_next x /\ x_toks y = a ++ r.
Proof.
  intros E x a t r R Et [Bp Bs] Ne. pose proof (ready_wfl _ _ R) as W.
  destruct (eofy_next (x_heap x) a t r) as (nx & b & ->); [rewrite <- Et; apply (re_eof _ _ R)|exact Ne|].
  destruct (remove_spec E a t nx b x W Et) as (y & Ey & RM & _ & _ & Pt & St). exists y. split; [exact Ey|].
  pose proof (removed_wfl _ _ _ _ _ _ _ W Et RM) as Wy. set (pv := match rev a with [] => nx | p :: _ => p end) in *.
  pose proof (removed_whole _ _ _ _ _ _ Et (ready_nodup _ _ R) RM) as PW. fold pv in PW.
  assert (TX : forall i, n_type (x_heap y i) = n_type (x_heap x i)) by (intros i; apply (rm_text _ _ _ _ _ _ _ RM i)).
  assert (CX : forall i, comment (x_heap y) i = comment (x_heap x) i) by (intros i; unfold comment; rewrite TX; reflexivity).
  assert (PR : forall i, n_pre (x_heap y i) = n_pre (x_heap x i)).
  { intros i. destruct (Nat.eq_dec i t) as [->|N1]; [congruence|]. destruct (Nat.eq_dec i nx) as [->|N2]; [rewrite (rm_pre_nx _ _ _ _ _ _ _ RM), Bp; reflexivity|apply (rm_pre _ _ _ _ _ _ _ RM); assumption]. }
  assert (FL : forall i, has_flag (n_flags (x_heap y i)) F_CPP = has_flag (n_flags (x_heap x i)) F_CPP) by (intros i; apply cpp_alike; apply (rm_text _ _ _ _ _ _ _ RM i)).
  assert (NX : x_next y = x_next x) by apply (rm_rest _ _ _ _ _ _ _ RM).
  assert (TK : x_toks y = a ++ nx :: b) by apply (rm_toks _ _ _ _ _ _ _ RM).
  split; [|split; [|split; [exact NX|exact TK]]].
  - constructor.
    + destruct Wy. constructor; auto.
    + exact (wl_eof _ _ Wy).
    + intros u d I Id. rewrite PR in Id. rewrite CX, FL. apply (re_tidy _ _ R u); [|exact Id]. rewrite TK in I. rewrite Et. apply in_app_or in I. apply in_or_app. destruct I as [I|I]; [left; exact I|right; right; exact I].
    + intros i I. rewrite NX. apply (re_old _ _ R). eapply Permutation_in; [symmetry; exact PW|]. right. exact I.
    + intros i L. apply (re_new _ _ R). lia.
    + intros i s L Is. rewrite NX in *. destruct (Nat.eq_dec i t) as [->|N1]; [rewrite St in Is; destruct Is|].
      assert (Lt : t < x_next x) by (apply (ready_lt _ _ _ R); rewrite Et; apply in_or_app; right; left; reflexivity).
      destruct (Nat.eq_dec i pv) as [->|N2]; [rewrite (rm_suf_pv _ _ _ _ _ _ _ RM) in Is; apply in_app_or in Is; destruct Is as [Is|Is]; [exact (re_suf _ _ R _ _ L Is)|exact (re_suf _ _ R _ _ Lt Is)]|].
      rewrite (rm_suf _ _ _ _ _ _ _ RM) in Is by assumption. exact (re_suf _ _ R _ _ L Is).
  - split; [lia|]. intros i _. split; [apply TX|]. split; [apply (rm_text _ _ _ _ _ _ _ RM i)|]. split; [apply PR|]. split; [|apply FL].
    unfold comments. rewrite (filter_ext' _ _ _ CX). destruct (Nat.eq_dec i t) as [->|N1]; [rewrite St; unfold comments in Bs; rewrite Bs; reflexivity|].
    destruct (Nat.eq_dec i pv) as [->|N2]; [rewrite (rm_suf_pv _ _ _ _ _ _ _ RM), filter_app; unfold comments in Bs; rewrite Bs, app_nil_r; reflexivity|rewrite (rm_suf _ _ _ _ _ _ _ RM) by assumption; reflexivity].
Qed.

Lemma whole_split : forall h p a q, whole h (p ++ a :: q) = whole h p ++ whole h [a] ++ whole h q.
Proof. intros. rewrite whole_app. f_equal. change (a :: q) with ([a] ++ q). apply whole_app. Qed.
Lemma whole_one : forall h a, whole h [a] = n_pre (h a) ++ a :: n_suf (h a).
Proof. intros. unfold whole. cbn. apply app_nil_r. Qed.
Lemma whole_old : forall h g l n, (forall i, In i l -> i < n) -> (forall i, i < n -> g i = h i) -> whole g l = whole h l.
Proof. intros h g l n A B. apply whole_ext. intros t I. rewrite B by auto. auto. Qed.

Lemma nodup_disj : forall {A} (a b : list A), NoDup a -> NoDup b -> (forall i, In i a -> In i b -> False) -> NoDup (a ++ b).
Proof.
  intros A a b Na Nb D. induction Na as [|u a U Na IH]; [exact Nb|]. cbn. constructor.
  - intros I. apply in_app_or in I. destruct I as [I|I]; [contradiction|]. eapply D; [left; reflexivity|exact I].
  - apply IH. intros i I1 I2. eapply D; [right; exact I1|exact I2].
Qed.

(** A new token without prefixes, its suffixes new as well, put into the list. *)
Lemma ready_grow : forall E x y p after q t, ready E x -> x_toks x = p ++ after :: q -> tyof x after <> T_EOF ->
  x_toks y = p ++ after :: t :: q -> x_next x <= t -> (forall i, i < x_next x -> x_heap y i = x_heap x i) ->
  n_pre (x_heap y t) = [] -> (forall i, In i (t :: n_suf (x_heap y t)) -> x_next x <= i < x_next y) -> NoDup (t :: n_suf (x_heap y t)) -> n_refs (x_heap y t) = 1 -> tyof y t <> T_EOF ->
  (forall i s, x_next x <= i < x_next y -> In s (n_suf (x_heap y i)) -> s < x_next y) ->
  ready E y /\ keeps x y.
Proof.
  intros E x y p after q t R Et Na Ty Lt Old Pt St Nd Rt Nt Sf.
  assert (NL : x_next x < x_next y) by (destruct (St t (or_introl eq_refl)); lia).
  assert (WO : whole (x_heap y) (x_toks x) = whole (x_heap x) (x_toks x)) by (eapply whole_old; [intros i I; exact (ready_lt _ _ i R I)|exact Old]).
  assert (PW : Permutation (whole (x_heap y) (x_toks y)) ((t :: n_suf (x_heap y t)) ++ whole (x_heap x) (x_toks x))).
  { rewrite <- WO, Ty, Et. rewrite !whole_split. change (t :: q) with ([t] ++ q). rewrite whole_app, (whole_one _ t), Pt. cbn [app]. permc. }
  assert (IN : forall i, In i (x_toks y) -> i = t \/ In i (x_toks x)).
  { intros i I. rewrite Ty in I. rewrite Et. apply in_app_or in I. destruct I as [I|[I|[I|I]]]; [right; apply in_or_app; left; exact I|right; apply in_or_app; right; left; exact I|left; auto|right; apply in_or_app; right; right; exact I]. }
  assert (WL : forall i, In i (whole (x_heap x) (x_toks x)) -> x_heap y i = x_heap x i) by (intros i I; apply Old, (re_old _ _ R), I).
  split.
  - constructor.
    + constructor.
      * eapply Permutation_NoDup; [symmetry; exact PW|]. apply nodup_disj; [exact Nd|apply (so_nodup _ _ (re_sound _ _ R))|]. intros i I1 I2. apply St in I1. apply (re_old _ _ R) in I2. lia.
      * intros u d I Id Di. destruct (IN u I) as [->|I']; [rewrite Pt in Id; destruct Id|]. rewrite Old in Id by (eapply ready_lt; eauto).
        assert (Ed : x_heap y d = x_heap x d) by (apply WL; eapply whole_pre; eauto). rewrite Ed. unfold isdird in Di. rewrite Ed in Di. apply (so_parent _ _ (re_sound _ _ R)); assumption.
      * intros u I. destruct (IN u I) as [->|I'].
        -- rewrite Rt, Pt, (re_new _ _ R) by lia. reflexivity.
        -- rewrite Old by (eapply ready_lt; eauto). rewrite (so_refs _ _ (re_sound _ _ R) u I'). do 2 f_equal. unfold ndirs. f_equal. apply filter_ext_in. intros d Id. unfold isdird. rewrite WL by (eapply whole_pre; eauto). reflexivity.
    + rewrite Ty. apply eofy_ins; [|rewrite Old by (eapply ready_lt; eauto; rewrite Et; apply in_or_app; right; left; reflexivity); exact Na|exact Nt].
      apply (eofy_ext (x_heap x)); [|rewrite <- Et; apply (re_eof _ _ R)]. intros u I. rewrite Old; [reflexivity|]. eapply ready_lt; eauto. rewrite Et. exact I.
    + intros u d I Id. destruct (IN u I) as [->|I']; [rewrite Pt in Id; destruct Id|]. rewrite Old in Id by (eapply ready_lt; eauto).
      assert (Ed : x_heap y d = x_heap x d) by (apply WL; eapply whole_pre; eauto). unfold comment. rewrite Ed. apply (re_tidy _ _ R u); assumption.
    + intros i I. eapply Permutation_in in I; [|exact PW]. apply in_app_or in I. destruct I as [I|I]; [apply St in I; lia|apply (re_old _ _ R) in I; lia].
    + intros i L. apply (re_new _ _ R). lia.
    + intros i s L Is. destruct (Nat.lt_ge_cases i (x_next x)) as [K|K]; [|eapply Sf; eauto]. rewrite Old in Is by exact K. pose proof (re_suf _ _ R _ _ K Is). lia.
  - split; [lia|]. intros i L. unfold same. rewrite Old by exact L. repeat split. unfold comments. rewrite Old by exact L.
    apply filter_ext_in. intros s Is. unfold comment. rewrite Old by (eapply (re_suf _ _ R); eauto). reflexivity.
Qed.

Lemma insert_ready : forall E x def p after q, ready E x -> x_toks x = p ++ after :: q -> tyof x after <> T_EOF -> n_type def <> T_EOF ->
  exists y t, insert_after after def x = Some (t, y) /\ ready E y /\ keeps x y /\ x_toks y = p ++ after :: t :: q /\ x_next x <= t < x_next y /\
    tyof y t = n_type def /\ n_str (x_heap y t) = n_str def /\ bare (x_heap y) t.
Proof.
  intros E x def p after q R Et Na Nd. pose proof (ready_lt _ _ after R ltac:(rewrite Et; apply in_or_app; right; left; reflexivity)) as La.
  destruct (insert_after_spec after def x p q (ready_nodup _ _ R) Et (fun t I => ready_lt _ _ t R I)) as (y & Ey & Ty & Ny & Old & T1 & T2 & T3 & T4 & _ & _ & T5 & _).
  exists y, (x_next x). split; [exact Ey|].
  destruct (ready_grow E x y p after q (x_next x) R Et Na Ty) as [Ry Ky]; try rewrite T4.
  - lia.
  - intros i L. apply Old. lia.
  - exact T3.
  - intros i [<-|[]]. lia.
  - repeat constructor. intros [].
  - exact T5.
  - unfold tyof. rewrite T1. exact Nd.
  - intros i s L Is. assert (i = x_next x) as -> by lia. rewrite T4 in Is. destruct Is.
  - split; [exact Ry|]. split; [exact Ky|]. split; [exact Ty|]. split; [lia|]. split; [exact T1|]. split; [exact T2|]. split; [exact T3|]. unfold comments. rewrite T4. reflexivity.
Qed.

Lemma copy_list_suf : forall l x i, x_next x <= i < x_next (snd (copy_list l x)) -> n_suf (x_heap (snd (copy_list l x)) i) = [].
Proof.
  induction l as [|p l IH]; intros x i L; cbn [copy_list snd] in *; [lia|]. unfold token_alloc in *. cbn [fst snd] in *. set (x1 := set_next _ _) in *.
  destruct (copy_list l x1) as [cs y] eqn:Ec. cbn [snd] in *. assert (Ey : y = snd (copy_list l x1)) by (rewrite Ec; reflexivity).
  destruct (Nat.eq_dec i (x_next x)) as [->|N].
  - assert (K : forall l x j, j < x_next x -> x_heap (snd (copy_list l x)) j = x_heap x j).
    { clear. induction l as [|p l IH]; intros x j L; [reflexivity|]. cbn [copy_list]. unfold token_alloc. set (x1 := set_next _ _). specialize (IH x1 j). destruct (copy_list l x1) as [cs y]. cbn [snd] in *. rewrite IH by (cbn; lia). cbn. apply upd_neq. lia. }
    rewrite Ey, K by (cbn; lia). cbn. rewrite upd_eq. reflexivity.
  - rewrite Ey. apply IH. rewrite <- Ey. cbn. lia.
Qed.
Lemma copy_ready : forall E x src p after q, ready E x -> x_toks x = p ++ after :: q -> tyof x after <> T_EOF -> In src (x_toks x) -> bare (x_heap x) src -> tyof x src <> T_EOF ->
  exists y t, copy_after after src x = Some (t, y) /\ ready E y /\ keeps x y /\ x_toks y = p ++ after :: t :: q /\ x_next x <= t < x_next y /\
    tyof y t = tyof x src /\ n_str (x_heap y t) = n_str (x_heap x src) /\ bare (x_heap y) t.
Proof.
  intros E x src p after q R Et Na Is [Bp Bs] Ns.
  pose proof (ready_lt _ _ after R ltac:(rewrite Et; apply in_or_app; right; left; reflexivity)) as La. pose proof (ready_lt _ _ _ R Is) as Ls.
  assert (Lf : forall s, In s (n_suf (x_heap x src)) -> s < x_next x) by (intros s; apply (re_suf _ _ R); exact Ls).
  unfold copy_after, token_alloc. set (x1 := set_next _ _).
  assert (X1 : forall i, i < x_next x -> x_heap x1 i = x_heap x i) by (intros i Hi; unfold x1; cbn; apply upd_neq; lia).
  rewrite X1, Bp by exact Ls. cbn [copy_list]. rewrite X1 by exact Ls.
  pose proof (copy_list_spec (n_suf (x_heap x src)) x1) as C. pose proof (copy_list_suf (n_suf (x_heap x src)) x1) as CS. destruct (copy_list _ x1) as [suf x3]. cbn [fst snd] in C, CS. cbv zeta in C.
  assert (N1 : x_next x1 = S (x_next x)) by reflexivity.
  destruct C as (D1 & D2 & D3 & D4 & D5 & D6 & D7); [intros t Ht; apply Lf in Ht; lia|].
  set (h1 := modify (x_heap x3) (x_next x) _).
  assert (Ht3 : x_toks x3 = x_toks x) by (rewrite D3; reflexivity). rewrite Ht3.
  assert (T1 : h1 (x_next x) = set_suf suf (Node (n_type (x_heap x src)) (n_flags (x_heap x src)) (n_lno (x_heap x src)) (n_cno (x_heap x src)) (n_str (x_heap x src)) 1 true [] [] None None None)).
  { unfold h1. rewrite mod_eq, D4 by lia. unfold x1. cbn. rewrite upd_eq. reflexivity. }
  assert (O1 : forall i, i < x_next x -> h1 i = x_heap x i) by (intros i Hi; unfold h1; rewrite mod_neq, D4, X1 by lia; auto).
  destruct (position_after_spec (x_toks x) after (x_next x) h1 (ready_nodup _ _ R)) as (g & Eg & G1 & G2 & G3 & G4); [rewrite Et; apply in_or_app; right; left; reflexivity|].
  rewrite Eg. set (y := set_toks _ _). exists y, (x_next x). split; [reflexivity|].
  assert (Hs1 : n_suf (h1 (x_next x)) = suf) by (rewrite T1; reflexivity).
  assert (RP : forall i, n_type (g i) = n_type (h1 i) /\ n_str (g i) = n_str (h1 i) /\ n_pre (g i) = n_pre (h1 i) /\ n_suf (g i) = n_suf (h1 i) /\ n_refs (g i) = n_refs (h1 i)).
  { intros i. destruct (repos_fields _ _ _ (G1 i)) as (A & B & C & D & _ & F & _). auto. }
  assert (Sb : forall i, In i suf -> S (x_next x) <= i < x_next x3) by (intros i I; rewrite D1 in I; apply in_seq in I; lia).
  assert (Ny : x_next y = x_next x3) by reflexivity. assert (Hy : x_heap y = g) by reflexivity.
  assert (Ty : x_toks y = p ++ after :: x_next x :: q).
  { unfold y. cbn. rewrite Et. apply ins_after_split. pose proof (ready_nodup _ _ R) as K. rewrite Et in K. apply (nodup_split _ _ _ K). }
  destruct (RP (x_next x)) as (P1 & P2 & P3 & P4 & P5). rewrite T1 in P1, P2, P3, P4, P5. cbn in P1, P2, P3, P4, P5.
  destruct (ready_grow E x y p after q (x_next x) R Et Na Ty) as [Ry Ky]; try rewrite Hy; try rewrite P4.
  - lia.
  - intros i L. rewrite G2; [apply O1; exact L|lia|]. rewrite Hs1. intros K. apply Sb in K. lia.
  - exact P3.
  - intros i [<-|I]; [lia|]. apply Sb in I. lia.
  - constructor; [intros K; apply Sb in K; lia|]. rewrite D1. apply seq_NoDup.
  - exact P5.
  - unfold tyof. rewrite Hy, P1. exact Ns.
  - intros i s L I. destruct (RP i) as (_ & _ & _ & Q & _). rewrite Q in I. destruct (Nat.eq_dec i (x_next x)) as [->|N]; [rewrite Hs1 in I; apply Sb in I; lia|].
    unfold h1 in I. rewrite mod_neq in I by exact N. rewrite CS in I by lia. destruct I.
  - split; [exact Ry|]. split; [exact Ky|]. split; [exact Ty|]. split; [lia|]. unfold tyof. rewrite Hy. split; [exact P1|]. split; [exact P2|]. split; [exact P3|].
    unfold comments. rewrite P4. unfold comments in Bs.
    assert (TS : map (fun i => n_type (g i)) suf = map (fun i => n_type (x_heap x i)) (n_suf (x_heap x src))).
    { transitivity (map (fun i => n_type (x_heap x3 i)) suf).
      - apply map_ext_in. intros i I. destruct (RP i) as (Q & _). rewrite Q. unfold h1. rewrite mod_neq; [reflexivity|]. apply Sb in I. lia.
      - apply (f_equal (map (fun '(a, _, _) => a))) in D6. rewrite !map_map in D6. rewrite D6. apply map_ext_in. intros i I. rewrite X1; [reflexivity|auto]. }
    clear -TS Bs. revert TS Bs. generalize (n_suf (x_heap x src)). induction suf as [|s suf IH]; intros [|u l] TS Bs; try discriminate; [reflexivity|]. cbn [map filter] in *. injection TS as T1 T2.
    unfold comment at 1. rewrite T1. unfold comment at 1 in Bs. destruct (ttype_eqb _ _); [discriminate|]. eapply IH; eauto.
Qed.

Lemma move_ready : forall E x t p after q, ready E x -> In t (x_toks x) -> del t (x_toks x) = p ++ after :: q -> tyof x after <> T_EOF -> tyof x t <> T_EOF ->
  exists y, move_after after t x = Some y /\ ready E y /\ keeps x y /\ x_next y = x_next x /\ x_toks y = p ++ after :: t :: q.
Proof.
  intros E x t p after q R It Ed Na Nt. pose proof (ready_nodup _ _ R) as ND.
  destruct (in_split _ _ It) as (a & b & Et). assert (Ni : ~ In t a) by (rewrite Et in ND; apply (nodup_split _ _ _ ND)).
  assert (AT : after <> t).
  { intros ->. rewrite Et, del_split in Ed by exact Ni. rewrite Et in ND. apply NoDup_remove_2 in ND. apply ND. rewrite Ed. apply in_or_app. right. left. reflexivity. }
  destruct (move_after_spec after t x p q ND Ed It AT) as (y & Ey & Ty & RP & _ & _ & _ & Ny & _). exists y. split; [exact Ey|].
  assert (P : Permutation (x_toks y) (x_toks x)).
  { rewrite Ty, Et. rewrite <- (Permutation_middle a b t). rewrite Et, del_split in Ed by exact Ni. rewrite Ed. rewrite app_cons1. rewrite <- Permutation_middle. rewrite <- app_assoc. reflexivity. }
  destruct (sound_moved E x y (re_sound _ _ R) RP P) as (So & PW & AL).
  assert (F : forall i, n_type (x_heap y i) = n_type (x_heap x i) /\ n_str (x_heap y i) = n_str (x_heap x i) /\ n_pre (x_heap y i) = n_pre (x_heap x i) /\ n_suf (x_heap y i) = n_suf (x_heap x i) /\ n_flags (x_heap y i) = n_flags (x_heap x i)).
  { intros i. destruct (repos_fields _ _ _ (RP i)) as (A & B & C & D & F & _). auto. }
  assert (CX : forall i, comment (x_heap y) i = comment (x_heap x) i) by (intros i; unfold comment; destruct (F i) as [-> _]; reflexivity).
  split; [|split; [|split; [exact Ny|exact Ty]]].
  - constructor.
    + exact So.
    + rewrite Ty. apply (eofy_ext (x_heap x)); [intros i _; apply F|]. apply eofy_ins; [|exact Na|exact Nt]. rewrite <- Ed, Et, del_split by exact Ni. apply (eofy_del _ _ t); [|exact Nt]. rewrite <- Et. apply (re_eof _ _ R).
    + intros u d I Id. destruct (F u) as (_ & _ & K & _). rewrite K in Id. rewrite CX. destruct (F d) as (_ & _ & _ & _ & ->). apply (re_tidy _ _ R u); [eapply Permutation_in; eauto|exact Id].
    + intros i I. rewrite Ny. apply (re_old _ _ R). eapply Permutation_in; eauto.
    + intros i L. apply (re_new _ _ R). lia.
    + intros i s L I. rewrite Ny in *. destruct (F i) as (_ & _ & _ & K & _). rewrite K in I. eapply (re_suf _ _ R); eauto.
  - split; [lia|]. intros i _. destruct (F i) as (F1 & F2 & F3 & F4 & F5). unfold same, comments. rewrite F1, F2, F3, F4, F5, (filter_ext' _ _ _ CX). repeat split.
Qed.

Lemma spaces_ready : forall E x e0 e1, ready E x -> In e0 (x_toks x) -> In e1 (x_toks x) -> e0 <> e1 ->
  let y := set_heap (move_suffixes_if e0 e1 T_SPACE (x_heap x)) x in ready E y /\ keeps x y.
Proof.
  intros E x e0 e1 R I0 I1 N y. pose proof (tails_spec E x e0 e1 (re_sound _ _ R) I0 I1) as K. cbn zeta in K. rewrite (proj2 (Nat.eqb_neq e0 e1) N) in K.
  destruct K as (So & AL & PW & PR & SF). set (g := move_suffixes_if e0 e1 T_SPACE (x_heap x)) in *.
  assert (TY : forall i, n_type (g i) = n_type (x_heap x i)) by (intros i; apply AL).
  assert (CX : forall i, comment g i = comment (x_heap x) i) by (intros i; unfold comment; rewrite TY; reflexivity).
  assert (FR : forall i, g i = set_suf (n_suf (g i)) (x_heap x i)) by (intros i; apply move_if_frame).
  split.
  - constructor.
    + exact So.
    + apply (eofy_ext (x_heap x)); [intros i _; apply TY|apply (re_eof _ _ R)].
    + intros u d I Id. cbn in *. rewrite PR in Id. rewrite CX, FR. apply (re_tidy _ _ R u); assumption.
    + intros i I. cbn in *. apply (re_old _ _ R). eapply Permutation_in; eauto.
    + intros i L. apply (re_new _ _ R). exact L.
    + intros i s L I. cbn in *. pose proof (ready_lt _ _ _ R I0) as L0. rewrite SF in I. destruct (i =? e0); [apply filter_In in I; destruct I as [I _]; exact (re_suf _ _ R _ _ L0 I)|].
      destruct (i =? e1); [apply in_app_or in I; destruct I as [I|I]; [|apply filter_In in I; destruct I as [I _]]; first [exact (re_suf _ _ R _ _ L0 I)|exact (re_suf _ _ R _ _ (ready_lt _ _ _ R I1) I)]|exact (re_suf _ _ R _ _ L I)].
  - split; [cbn; lia|]. intros i _. unfold same, comments. cbn. rewrite (filter_ext' _ _ _ CX). split; [apply TY|]. split; [rewrite FR; reflexivity|]. split; [apply PR|]. split; [|rewrite FR; reflexivity].
    assert (Z : forall l, filter (comment (x_heap x)) (filter (is_space (x_heap x)) l) = []).
    { induction l as [|s l IH]; [reflexivity|]. cbn. destruct (is_space (x_heap x) s) eqn:Es; [|exact IH]. cbn. unfold comment, is_space in *. destruct (n_type (x_heap x s)); try discriminate Es; exact IH. }
    assert (Z2 : forall l, filter (comment (x_heap x)) (filter (fun s => negb (is_space (x_heap x) s)) l) = filter (comment (x_heap x)) l).
    { induction l as [|s l IH]; [reflexivity|]. cbn. unfold is_space at 1. destruct (ttype_eqb (n_type (x_heap x s)) T_SPACE) eqn:Es; cbn; [|rewrite IH; reflexivity]. unfold comment at 2. destruct (n_type (x_heap x s)); try discriminate Es; exact IH. }
    rewrite SF. destruct (Nat.eqb_spec i e0) as [->|_]; [apply Z2|]. destruct (Nat.eqb_spec i e1) as [->|_]; [rewrite filter_app, Z; apply app_nil_r|reflexivity].
Qed.
