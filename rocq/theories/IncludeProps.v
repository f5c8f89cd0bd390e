(** C25, C26: includes are sorted, their paths found. *)
From Coq Require Import Lia Permutation Sorted.
From Verif Require Import Base StrModel IncludeModel.
Open Scope Z_scope.

(** ** Specification. *)
(** qsort(3) sorts given a consistent comparison. *)
Definition consistent {A} (cmp : A -> A -> Z) : Prop :=
  (forall a b, Z.sgn (cmp a b) = - Z.sgn (cmp b a)) /\ (forall a b c, cmp a b <= 0 -> cmp b c <= 0 -> cmp a c <= 0).
Definition qsort_ok (qsort : forall A, (A -> A -> Z) -> list A -> list A) : Prop :=
  forall A cmp, consistent cmp -> forall l : list A, Permutation l (qsort A cmp l) /\ StronglySorted (fun a b => cmp a b <= 0) (qsort A cmp l).

(** ** Comparison of text. *)
Definition bv (c : byte) : Z := Z.of_nat (nat_of_ascii c).
Lemma bv_inj : forall a b, bv a = bv b -> a = b.
Proof. intros a b H. unfold bv in H. rewrite <- (ascii_nat_embedding a), <- (ascii_nat_embedding b). f_equal. lia. Qed.
Lemma bv_nul : forall a, a <> NUL -> 0 < bv a.
Proof. intros a H. destruct (Z.eq_dec (bv a) 0) as [E|E]; [exfalso; apply H, bv_inj; rewrite E; reflexivity|]. unfold bv in *. lia. Qed.
Fixpoint lex (a b : list Z) : Z :=
  match a, b with
  | [], [] => 0
  | [], _ => -1
  | _, [] => 1
  | x :: a, y :: b => if x <? y then -1 else if y <? x then 1 else lex a b
  end.
Lemma lex_anti : forall a b, lex a b = - lex b a.
Proof. induction a as [|x a IH]; intros [|y b]; cbn [lex]; try reflexivity. rewrite (IH b). destruct (Z.ltb_spec x y), (Z.ltb_spec y x); lia. Qed.
Lemma lex_trans : forall a b c, lex a b <= 0 -> lex b c <= 0 -> lex a c <= 0.
Proof.
  induction a as [|x a IH]; intros [|y b] [|z c]; cbn [lex]; try lia.
  destruct (Z.ltb_spec x y), (Z.ltb_spec y x), (Z.ltb_spec y z), (Z.ltb_spec z y), (Z.ltb_spec x z), (Z.ltb_spec z x); try lia. intros. eapply IH; eauto.
Qed.
Fixpoint enc (n : Z) (a : bytes) : list Z := match a with [] => [] | x :: r => if x =c NUL then [0; n] else bv x :: enc n r end.
Lemma strcmp_enc : forall a b na nb, Z.sgn na = 1 -> Z.of_nat (length a) <= na -> Z.of_nat (length b) <= nb -> na - Z.of_nat (length a) = nb - Z.of_nat (length b) ->
  Z.sgn (let c := strncmp (Nat.min (length a) (length b)) a b in if negb (c =? 0) then c else (if na <? nb then -1 else 0) + (if nb <? na then 1 else 0)) = lex (enc na a) (enc nb b).
Proof.
  induction a as [|x a IH]; intros b na nb P A B E.
  - cbn [length Nat.min strncmp]. cbn zeta. cbn [Z.eqb negb]. destruct b as [|y b]; cbn [length] in *.
    + assert (na = nb) as -> by lia. rewrite Z.ltb_irrefl. reflexivity.
    + destruct (Z.ltb_spec na nb); [|lia]. destruct (Z.ltb_spec nb na); [lia|]. cbn [enc]. destruct (y =c NUL); reflexivity.
  - destruct b as [|y b].
    + rewrite Nat.min_0_r. cbn [strncmp length] in *. cbn zeta. cbn [Z.eqb negb]. destruct (Z.ltb_spec na nb); [lia|]. destruct (Z.ltb_spec nb na); [|lia]. cbn [enc]. destruct (x =c NUL); reflexivity.
    + cbn [length Nat.min strncmp enc] in *. destruct (Ascii.eqb_spec x y) as [->|N].
      * destruct (Ascii.eqb_spec y NUL) as [->|N2].
        -- cbn zeta. cbn [Z.eqb negb lex]. rewrite Z.ltb_irrefl. destruct (Z.ltb_spec na nb), (Z.ltb_spec nb na); try lia; reflexivity.
        -- cbn [lex]. rewrite Z.ltb_irrefl. rewrite <- IH by lia. reflexivity.
      * cbn zeta. change (Z.of_nat (nat_of_ascii x) - Z.of_nat (nat_of_ascii y)) with (bv x - bv y). assert (bv x <> bv y) by (intros Q; apply N, bv_inj, Q). destruct (Z.eqb_spec (bv x - bv y) 0); [lia|]. cbn [negb].
        destruct (Ascii.eqb_spec x NUL) as [->|NX]; [|pose proof (bv_nul x NX)]; (destruct (Ascii.eqb_spec y NUL) as [->|NY]; [|pose proof (bv_nul y NY)]); cbn [lex]; change (bv NUL) with 0 in *.
        -- congruence.
        -- destruct (Z.ltb_spec 0 (bv y)); lia.
        -- destruct (Z.ltb_spec (bv x) 0); [lia|]. destruct (Z.ltb_spec 0 (bv x)); lia.
        -- destruct (Z.ltb_spec (bv x) (bv y)); [lia|]. destruct (Z.ltb_spec (bv y) (bv x)); lia.
Qed.
Definition tkey (a : bytes) : list Z := enc (Z.of_nat (length a)) a.
Lemma strcmp_lex : forall a b, Z.sgn (token_strcmp a b) = lex (tkey a) (tkey b).
Proof.
  intros a b. unfold token_strcmp, tkey. destruct a as [|x a].
  - destruct b as [|y b]; [reflexivity|]. cbn [length Nat.min strncmp enc]. destruct (y =c NUL); reflexivity.
  - rewrite <- strcmp_enc by (cbn [length]; lia). cbn zeta. f_equal. destruct (negb _); [reflexivity|]. f_equal; repeat match goal with |- context [(?a <? ?b)%nat] => destruct (Nat.ltb_spec a b) | |- context [?a <? ?b] => destruct (Z.ltb_spec a b) end; try lia; reflexivity.
Qed.
Lemma strcmp_le : forall a b, token_strcmp a b <= 0 <-> lex (tkey a) (tkey b) <= 0.
Proof. intros. rewrite <- strcmp_lex. lia. Qed.
Lemma include_consistent : consistent include_cmp.
Proof.
  split.
  - intros a b. unfold include_cmp. destruct (Z.ltb_spec (pr_sort (i_prio a)) (pr_sort (i_prio b))), (Z.ltb_spec (pr_sort (i_prio b)) (pr_sort (i_prio a))); try reflexivity; [lia|]. rewrite !strcmp_lex. rewrite lex_anti. lia.
  - intros a b c. unfold include_cmp. pose proof (strcmp_le (p_str (i_tk a)) (p_str (i_tk b))). pose proof (strcmp_le (p_str (i_tk b)) (p_str (i_tk c))). pose proof (strcmp_le (p_str (i_tk a)) (p_str (i_tk c))). pose proof (lex_trans (tkey (p_str (i_tk a))) (tkey (p_str (i_tk b))) (tkey (p_str (i_tk c)))).
    repeat match goal with |- context [?a <? ?b] => destruct (Z.ltb_spec a b) end; try lia; tauto.
Qed.
Lemma priority_consistent : consistent priority_cmp.
Proof. split; intros; unfold priority_cmp in *; repeat match goal with |- context [?a <? ?b] => destruct (Z.ltb_spec a b) | H : context [?a <? ?b] |- _ => destruct (Z.ltb_spec a b) end; lia. Qed.

(** ** Lists of tokens. *)
Lemma nodup_app : forall A (a b : list A), NoDup (a ++ b) <-> NoDup a /\ NoDup b /\ (forall x, In x a -> ~ In x b).
Proof.
  induction a as [|x a IH]; intros b; cbn [app].
  - split; [intros H; repeat split; [constructor|exact H|intros x []]|tauto].
  - rewrite !NoDup_cons_iff, IH, in_app_iff. split.
    + intros (H1 & H2 & H3 & H4). repeat split; try tauto. intros y [<-|Hy]; [tauto|auto].
    + intros ((H1 & H2) & H3 & H4). repeat split; auto; [|intros y Hy; apply H4; right; exact Hy]. intros [Q|Q]; [contradiction|]. exact (H4 x (or_introl eq_refl) Q).
Qed.
Definition ids (l : list ptok) : list nat := List.map p_id l.
Lemma trim_id : forall t, p_id (trim_line t) = p_id t.
Proof. intros t. unfold trim_line. destruct (has_verbatim_line t 2); reflexivity. Qed.
Lemma mem_id_spec : forall i l, mem_id i l = true <-> In i (ids l).
Proof. intros i l. unfold mem_id, ids. rewrite existsb_exists, in_map_iff. split; intros (x & A & B); exists x; [apply Nat.eqb_eq in B|apply Nat.eqb_eq in A]; auto. Qed.
Lemma remove_absent : forall i l, ~ In i (ids l) -> remove i l = l.
Proof. induction l as [|t l IH]; intros H; [reflexivity|]. cbn in *. destruct (Nat.eqb_spec (p_id t) i); [tauto|]. f_equal. apply IH. tauto. Qed.
Lemma remove_filter : forall i l, NoDup (ids l) -> remove i l = filter (fun x => negb (p_id x =? i)%nat) l.
Proof.
  induction l as [|t l IH]; intros H; [reflexivity|]. cbn [remove filter ids List.map] in *. inversion H as [|? ? H1 H2]; subst. destruct (Nat.eqb_spec (p_id t) i) as [<-|N]; cbn [negb]; [|f_equal; auto].
  symmetry. rewrite <- IH by exact H2. apply remove_absent. exact H1.
Qed.
Lemma remove_app : forall i a b, ~ In i (ids a) -> remove i (a ++ b) = a ++ remove i b.
Proof. induction a as [|t a IH]; intros b H; [reflexivity|]. cbn in *. destruct (Nat.eqb_spec (p_id t) i); [tauto|]. f_equal. apply IH. tauto. Qed.
Definition last_id (l : list ptok) : option nat := match rev l with [] => None | t :: _ => Some (p_id t) end.
Lemma last_id_snoc : forall l t, last_id (l ++ [t]) = Some (p_id t).
Proof. intros. unfold last_id. rewrite rev_app_distr. reflexivity. Qed.
Lemma append_app : forall i t a x b, ~ In i (ids a) -> p_id x = i -> append_after i t (a ++ x :: b) = a ++ x :: t :: b.
Proof. induction a as [|y a IH]; intros x b H E; cbn in *; [rewrite E, Nat.eqb_refl; reflexivity|]. destruct (Nat.eqb_spec (p_id y) i); [tauto|]. f_equal. apply IH; tauto. Qed.
Lemma insert_last : forall pre t rest, NoDup (ids pre) -> insert (last_id pre) t (pre ++ rest) = (pre ++ [t]) ++ rest /\ insert_bad (last_id pre) (pre ++ rest) = false.
Proof.
  intros pre t rest H. destruct pre as [|x0 p0] eqn:E; [split; reflexivity|]. destruct (exists_last (l := x0 :: p0) ltac:(discriminate)) as (p & x & EX). rewrite EX in *. clear E EX. rewrite last_id_snoc. cbn [insert insert_bad]. rewrite <- !app_assoc. cbn [app]. split.
  - apply append_app; [|reflexivity]. unfold ids in H. rewrite map_app in H. apply NoDup_remove in H. rewrite app_nil_r in H. tauto.
  - apply Bool.negb_false_iff, mem_id_spec. unfold ids. rewrite map_app. apply in_or_app. right. left. reflexivity.
Qed.
Definition without (is : list nat) (l : list ptok) : list ptok := filter (fun x => negb (existsb (Nat.eqb (p_id x)) is)) l.
Lemma without_nil : forall l, without [] l = l.
Proof. induction l as [|t l IH]; [reflexivity|]. cbn. f_equal. exact IH. Qed.
Lemma filter_filter : forall A (f g : A -> bool) l, filter f (filter g l) = filter (fun x => g x && f x) l.
Proof. induction l as [|x l IH]; [reflexivity|]. cbn. destruct (g x); cbn; [destruct (f x); [f_equal|]; exact IH|exact IH]. Qed.
Lemma without_app : forall a b l, without (a ++ b) l = without b (without a l).
Proof. intros a b l. unfold without. rewrite filter_filter. apply filter_ext. intros x. rewrite existsb_app, Bool.negb_orb. reflexivity. Qed.
Lemma without_in : forall is l x, In x (without is l) <-> In x l /\ ~ In (p_id x) is.
Proof.
  intros. unfold without. rewrite filter_In. rewrite Bool.negb_true_iff. split; intros [A B]; split; auto.
  - intros Q. rewrite <- Bool.not_true_iff_false in B. apply B. apply existsb_exists. exists (p_id x). rewrite Nat.eqb_refl. auto.
  - apply Bool.not_true_iff_false. intros Q. apply existsb_exists in Q. destruct Q as (y & Y1 & Y2). apply Nat.eqb_eq in Y2. subst y. contradiction.
Qed.
Lemma NoDup_filter_ids : forall f l, NoDup (ids l) -> NoDup (ids (filter f l)).
Proof.
  induction l as [|t l IH]; intros H; [exact H|]. cbn [filter ids List.map] in *. inversion H as [|? ? H1 H2]; subst. destruct (f t); [|auto]. constructor; [|auto]. intros Q. apply H1. unfold ids in *. apply in_map_iff in Q. destruct Q as (y & Y1 & Y2). apply filter_In in Y2. apply in_map_iff. exists y. tauto.
Qed.

(** ** Placing includes. *)
Definition toks (l : list include) : list ptok := List.map i_tk l.
Definition upd_pre (st : state) (p : list ptok) : state := State p (s_next st) (s_includes st) (s_after st) (s_ignore st) (s_bad st).
Lemma place_spec : forall l st pre rest, s_prefixes st = pre ++ rest -> NoDup (ids (pre ++ rest)) -> NoDup (ids (toks l)) -> (forall i, In i l -> In (i_tk i) rest) ->
  place l st (last_id pre) = (upd_pre st ((pre ++ List.map trim_line (toks l)) ++ without (ids (toks l)) rest), last_id (pre ++ List.map trim_line (toks l))).
Proof.
  induction l as [|i l IH]; intros st pre rest E N NL H.
  - cbn [place toks List.map ids]. rewrite app_nil_r, without_nil. f_equal. unfold upd_pre. rewrite <- E. destruct st; reflexivity.
  - cbn [place toks List.map ids] in *. rewrite trim_id. set (t := trim_line (i_tk i)).
    assert (HI : In (i_tk i) rest) by (apply H; left; reflexivity). pose proof N as N'. unfold ids in N'. rewrite map_app in N'. apply nodup_app in N'. destruct N' as (NP & NR & ND). fold (ids pre) in NP, ND. fold (ids rest) in NR, ND.
    assert (NI : ~ In (p_id (i_tk i)) (ids pre)) by (intros Q; apply (ND _ Q), in_map, HI).
    rewrite E. rewrite remove_app by exact NI.
    destruct (insert_last pre t (remove (p_id (i_tk i)) rest) NP) as [I1 I2]. rewrite I1, I2.
    assert (MI : mem_id (p_id (i_tk i)) (pre ++ rest) = true) by (apply mem_id_spec; unfold ids; rewrite map_app; apply in_or_app; right; apply in_map; exact HI). rewrite MI. cbn [negb]. rewrite !Bool.orb_false_r.
    assert (RF : remove (p_id (i_tk i)) rest = without [p_id (i_tk i)] rest). { rewrite remove_filter by exact NR. unfold without. apply filter_ext. intros x. cbn [existsb]. rewrite Bool.orb_false_r. reflexivity. }
    rewrite RF. rewrite <- (trim_id (i_tk i)) at 2. fold t. rewrite <- (last_id_snoc pre t). inversion NL as [|? ? NL1 NL2]; subst.
    rewrite (IH _ (pre ++ [t]) (without [p_id (i_tk i)] rest)).
    + unfold upd_pre. cbn [s_next s_includes s_after s_ignore s_bad]. rewrite <- without_app, <- !app_assoc. reflexivity.
    + reflexivity.
    + unfold ids. rewrite !map_app. fold (ids pre). cbn [List.map]. unfold t. rewrite trim_id. apply nodup_app. split; [apply nodup_app; split; [exact NP|split; [repeat constructor; intros []|intros x Q [<-|[]]; contradiction]]|]. split; [apply (NoDup_filter_ids _ rest NR)|].
      intros x Q R. apply in_map_iff in R. destruct R as (y & <- & R). apply without_in in R. destruct R as [R1 R2]. apply in_app_or in Q. destruct Q as [Q|[Q|[]]]; [apply (ND _ Q), in_map, R1|]. apply R2. left. exact Q.
    + exact NL2.
    + intros j Hj. apply without_in. split; [apply H; right; exact Hj|]. intros [Q|[]]. apply NL1. rewrite Q. apply in_map. apply in_map. exact Hj.
Qed.

(** ** Groups. *)
Section Groups.
Variable category : Type.
Variable matches : category -> bytes -> bool.
Variable qsort : forall A, (A -> A -> Z) -> list A -> list A.
Hypothesis QS : qsort_ok qsort.
Variable categories : list (category * priority).
Variable regroup : bool.
Variable path : bytes.
Variable diffparse : bool.
Variable behind : ptok -> bytes.

(** The path of an include, its group and position in the group. *)
Definition path_of (t : ptok) : option bytes := fst (findpath (p_str t ++ behind t) (length (p_str t))).
Definition prio (first : bool) (t : ptok) : priority :=
  match path_of t with
  | None => Prio 0 0
  | Some ip =>
      if regroup then
        if is_main_include ip path then Prio 0 0
        else match find (fun c => matches (fst c) ip) categories with Some c => snd c | None => Prio INT_MAX INT_MAX end
      else Prio 0 (if first && is_main_include ip path then -1 else 0)
  end.
Definition annotate (l : list ptok) : list include := match l with [] => [] | t :: r => Inc t (prio true t) :: List.map (fun t => Inc t (prio false t)) r end.
Definition bracket (t : ptok) : Prop := exists r, path_of t = Some ("<"%char :: r).
Definition quote (t : ptok) : Prop := exists r, path_of t = Some (DQ :: r).
Definition slash (t : ptok) : Prop := exists p, path_of t = Some p /\ In "/"%char p.
(** When a block of includes is sorted. *)
Definition sortable (b : list ptok) : Prop :=
  (2 <= length b)%nat /\ (diffparse = true -> forall t, In t b -> p_diff t = true) /\ (forall t, In t b -> path_of t <> None) /\
  (regroup = false -> ~ ((exists t, In t b /\ bracket t) /\ (exists t, In t b /\ (quote t \/ slash t)))).
Definition in_group (k : Z) (l : list include) : list include := filter (fun i => pr_group (i_prio i) =? k) l.
(** A group is followed by an empty line if asked for, or if there was one after the last of it. *)
Definition line_after (g : list include) (line : list ptok) : Prop :=
  if regroup || match rev g with i :: _ => has_verbatim_line (i_tk i) 2 | [] => false end then exists id, line = [line_token id] else line = [].
Inductive laid (is : list include) : list Z -> list ptok -> Prop :=
| laid_nil : laid is [] []
| laid_cons k ks g line out : Permutation (in_group k is) g -> StronglySorted (fun a b => include_cmp a b <= 0) g -> g <> [] -> line_after (in_group k is) line -> laid is ks out ->
    laid is (k :: ks) (List.map trim_line (toks g) ++ line ++ out).
Definition arranged (b out : list ptok) : Prop :=
  exists ks, StronglySorted Z.lt ks /\ (forall i, In i (annotate b) -> In (pr_group (i_prio i)) ks) /\ laid (annotate b) ks out.
Definition block_result (b out : list ptok) : Prop := sortable b /\ arranged b out \/ ~ sortable b /\ out = b.

Lemma prio_find : forall cs ip, style_priority category matches cs ip = match find (fun c => matches (fst c) ip) cs with Some c => snd c | None => Prio INT_MAX INT_MAX end.
Proof. induction cs as [|[c pr] cs IH]; intros ip; [reflexivity|]. cbn [style_priority find fst]. destruct (matches c ip); [reflexivity|apply IH]. Qed.
Notation init := (init_groups category qsort categories).
Definition keys (g : groups) : list Z := List.map fst g.
Lemma add_group_keys : forall g k, keys (add_group g k) = if existsb (Z.eqb k) (keys g) then keys g else keys g ++ [k].
Proof.
  intros g k. unfold add_group, keys. assert (E : existsb (fun e : Z * list include => fst e =? k) g = existsb (Z.eqb k) (List.map fst g)) by (induction g as [|x g IH]; [reflexivity|]; cbn; rewrite IH, (Z.eqb_sym k); reflexivity). rewrite E. destruct (existsb (Z.eqb k) (List.map fst g)); [reflexivity|]. rewrite map_app. reflexivity.
Qed.
Lemma existsb_in : forall k l, existsb (Z.eqb k) l = true <-> In k l.
Proof. intros k l. rewrite existsb_exists. split; [intros (x & A & B); apply Z.eqb_eq in B; subst; exact A|intros H; exists k; rewrite Z.eqb_refl; auto]. Qed.
Lemma ss_snoc : forall l k, StronglySorted Z.lt l -> (forall x, In x l -> x < k) -> StronglySorted Z.lt (l ++ [k]).
Proof. induction l as [|a l IH]; intros k S H; cbn [app]; [repeat constructor|]. inversion S as [|? ? S1 S2]; subst. constructor; [apply IH; auto; intros x Hx; apply H; right; exact Hx|]. apply Forall_app. split; [exact S2|]. repeat constructor. apply H. left. reflexivity. Qed.
Lemma fold_groups : forall l g, StronglySorted Z.le l -> StronglySorted Z.lt (keys g) -> (forall x y, In x (keys g) -> In y l -> x <= y) -> (forall e, In e g -> snd e = []) ->
  let g' := fold_left add_group l g in StronglySorted Z.lt (keys g') /\ (forall k, In k (keys g') <-> In k (keys g) \/ In k l) /\ forall e, In e g' -> snd e = [].
Proof.
  induction l as [|k l IH]; intros g S G X E g'; cbn [fold_left] in *; [subst g'; split; [exact G|]; split; [intros k; cbn; tauto|exact E]|].
  inversion S as [|? ? S1 S2]; subst. destruct (IH (add_group g k)) as (I1 & I2 & I3).
  - exact S1.
  - rewrite add_group_keys. destruct (existsb (Z.eqb k) (keys g)) eqn:EX; [exact G|]. apply ss_snoc; [exact G|]. intros x Hx. assert (x <> k) by (intros ->; apply existsb_in in Hx; congruence). pose proof (X x k Hx (or_introl eq_refl)). lia.
  - intros x y Hx Hy. rewrite add_group_keys in Hx. destruct (existsb (Z.eqb k) (keys g)); [apply X; [exact Hx|right; exact Hy]|]. apply in_app_or in Hx. destruct Hx as [Hx|[<-|[]]]; [apply X; [exact Hx|right; exact Hy]|]. exact (proj1 (Forall_forall _ _) S2 y Hy).
  - intros e He. unfold add_group in He. destruct (existsb _ g); [auto|]. apply in_app_or in He. destruct He as [He|[<-|[]]]; auto.
  - subst g'. split; [exact I1|]. split; [|exact I3]. intros x. rewrite I2, add_group_keys. destruct (existsb (Z.eqb k) (keys g)) eqn:EX; [|rewrite in_app_iff; cbn; tauto]. apply existsb_in in EX. cbn. split; [tauto|]. intros [Q|[<-|Q]]; auto.
Qed.
Lemma init_spec : StronglySorted Z.lt (keys init) /\ (forall e, In e init -> snd e = []) /\ In 0 (keys init) /\ In INT_MAX (keys init) /\ forall c, In c categories -> In (pr_group (snd c)) (keys init).
Proof.
  unfold init_groups, priorities. destruct (QS Z priority_cmp priority_consistent ([0; INT_MAX] ++ List.map (fun c => pr_group (snd c)) categories)) as [P S].
  assert (S' : StronglySorted Z.le (qsort Z priority_cmp ([0; INT_MAX] ++ List.map (fun c => pr_group (snd c)) categories))).
  { clear P. induction S as [|a l S IH F]; constructor; [exact IH|]. eapply Forall_impl; [|exact F]. intros b H. unfold priority_cmp in H. repeat match goal with H : context [?a <? ?b] |- _ => destruct (Z.ltb_spec a b) end; lia. }
  destruct (fold_groups _ [] S' (SSorted_nil _)) as (A & B & C); [intros x y []|intros e []|]. split; [exact A|]. split; [exact C|].
  assert (IN : forall k, In k ([0; INT_MAX] ++ List.map (fun c => pr_group (snd c)) categories) -> In k (keys (fold_left add_group (qsort Z priority_cmp ([0; INT_MAX] ++ List.map (fun c => pr_group (snd c)) categories)) []))) by (intros k Hk; apply B; right; eapply Permutation_in; eauto).
  split; [apply IN; left; reflexivity|]. split; [apply IN; right; left; reflexivity|]. intros c Hc. apply IN. right. right. apply (in_map (fun c => pr_group (snd c))). exact Hc.
Qed.

(** Filing an include. *)
Lemma add_to_group_spec : forall i g, In (pr_group (i_prio i)) (keys g) -> NoDup (keys g) -> exists g', add_to_group i g = Some g' /\ keys g' = keys g /\ forall k l, In (k, l) g' -> exists l0, In (k, l0) g /\ l = if k =? pr_group (i_prio i) then l0 ++ [i] else l0.
Proof.
  induction g as [|[k l] g IH]; intros H N; [destruct H|]. cbn [add_to_group keys List.map fst] in *. inversion N as [|? ? N1 N2]; subst. destruct (Z.eqb_spec k (pr_group (i_prio i))) as [E|NE].
  - eexists. split; [reflexivity|]. split; [reflexivity|]. intros k' l' [Q|Q].
    + inversion Q; subst. exists l. split; [left; reflexivity|]. rewrite Z.eqb_refl. reflexivity.
    + exists l'. split; [right; exact Q|]. destruct (Z.eqb_spec k' (pr_group (i_prio i))) as [E2|]; [|reflexivity]. exfalso. apply N1. rewrite E, <- E2. apply (in_map fst) in Q. exact Q.
  - destruct H as [H|H]; [congruence|]. destruct (IH H N2) as (g' & A & B & C). rewrite A. eexists. split; [reflexivity|]. split; [cbn [keys List.map fst]; f_equal; exact B|]. intros k' l' [Q|Q].
    + inversion Q; subst. exists l'. split; [left; reflexivity|]. destruct (Z.eqb_spec k' (pr_group (i_prio i))); [congruence|reflexivity].
    + destruct (C k' l' Q) as (l0 & L1 & L2). exists l0. split; [right; exact L1|exact L2].
Qed.
Definition filed (g : groups) (is : list include) : Prop := forall k l, In (k, l) g -> l = in_group k is.
Lemma filed_add : forall g is i, In (pr_group (i_prio i)) (keys g) -> NoDup (keys g) -> filed g is -> exists g', add_to_group i g = Some g' /\ keys g' = keys g /\ filed g' (is ++ [i]).
Proof.
  intros g is i H N F. destruct (add_to_group_spec i g H N) as (g' & A & B & C). exists g'. split; [exact A|]. split; [exact B|]. intros k l Q. destruct (C k l Q) as (l0 & L1 & ->). rewrite (F k l0 L1). unfold in_group. rewrite filter_app. cbn [filter]. rewrite (Z.eqb_sym k). destruct (_ =? k); [reflexivity|rewrite app_nil_r; reflexivity].
Qed.

Definition notes (first : bool) (l : list ptok) : list include := match l with [] => [] | t :: r => Inc t (prio first t) :: List.map (fun t => Inc t (prio false t)) r end.
Lemma notes_cons : forall first t r, notes first (t :: r) = Inc t (prio first t) :: notes false r.
Proof. intros first t [|u r]; reflexivity. Qed.
Definition fine (nbr nq ns : nat) (l : list ptok) : Prop :=
  (forall t, In t l -> path_of t <> None) /\ (regroup = false -> ~ (((0 < nbr)%nat \/ exists t, In t l /\ bracket t) /\ ((0 < nq)%nat \/ (0 < ns)%nat \/ exists t, In t l /\ (quote t \/ slash t)))).
Lemma prioritize_spec : forall l first nbr nq ns g acc, filed g acc -> keys g = keys init -> fine nbr nq ns [] ->
  match prioritize category matches categories regroup path behind first l nbr nq ns g with
  | Bad => False
  | Stop => ~ fine nbr nq ns l
  | Go g' => fine nbr nq ns l /\ keys g' = keys init /\ filed g' (acc ++ notes first l)
  end.
Proof.
  destruct init_spec as (IS1 & IS2 & IS3 & IS4 & IS5).
  assert (ND : NoDup (keys init)). { clear - IS1. induction IS1 as [|a l S IH F]; constructor; [|exact IH]. intros Q. pose proof (proj1 (Forall_forall _ _) F a Q). lia. }
  induction l as [|t l IH]; intros first nbr nq ns g acc F K I0.
  - cbn [prioritize notes]. rewrite app_nil_r. auto.
  - cbn [prioritize]. fold (path_of t). destruct (path_of t) as [ip|] eqn:EP.
    2: { intros [Q _]. exact (Q t (or_introl eq_refl) EP). }
    rewrite notes_cons. destruct regroup eqn:ER.
    + assert (EPR : (if is_main_include ip path then Prio 0 0 else style_priority category matches categories ip) = prio first t) by (unfold prio; rewrite EP, ER, prio_find; reflexivity). rewrite EPR. set (pr := prio first t) in *.
      assert (KI : In (pr_group pr) (keys init)). { rewrite <- EPR. destruct (is_main_include ip path); [exact IS3|]. rewrite prio_find. destruct (find _ categories) as [c|] eqn:EF; [apply IS5; apply find_some in EF; tauto|exact IS4]. }
      destruct (filed_add g acc (Inc t pr)) as (g' & A & B & C); [rewrite K; exact KI|rewrite K; exact ND|exact F|]. rewrite A. rewrite K in B. specialize (IH false nbr nq ns g' (acc ++ [Inc t pr]) C B). rewrite <- app_assoc in IH. cbn [app] in IH.
      assert (FE : fine nbr nq ns l <-> fine nbr nq ns (t :: l)). { unfold fine. split; intros [Q1 Q2]; (split; [|intros; congruence]); intros u Hu; [destruct Hu as [<-|Hu]; [congruence|auto]|apply Q1; right; exact Hu]. }
      specialize (IH ltac:(split; [intros u []|intros; congruence])). destruct (prioritize _ _ _ _ _ _ _ _ _ _ _ g'); tauto.
    + assert (EPR : (if first && is_main_include ip path then Prio 0 (-1) else Prio 0 0) = prio first t) by (unfold prio; rewrite EP, ER; destruct (first && _); reflexivity). rewrite EPR. set (pr := prio first t) in *.
      assert (KI : pr_group pr = 0) by (rewrite <- EPR; destruct (first && _); reflexivity).
      assert (HB : (hd NUL ip =c "<"%char) = true <-> bracket t). { unfold bracket. rewrite EP. rewrite Ascii.eqb_eq. split; [|intros (r & Q); inversion Q; reflexivity]. intros Q. destruct ip as [|c r]; [discriminate|]. cbn in Q. subst c. eauto. }
      assert (HQ : (hd NUL ip =c DQ) = true <-> quote t). { unfold quote. rewrite EP. rewrite Ascii.eqb_eq. split; [|intros (r & Q); inversion Q; reflexivity]. intros Q. destruct ip as [|c r]; [discriminate|]. cbn in Q. subst c. eauto. }
      assert (HS : existsb (fun c => c =c "/"%char) ip = true <-> slash t). { unfold slash. rewrite EP. rewrite existsb_exists. split; [intros (c & C1 & C2); apply Ascii.eqb_eq in C2; subst c; eauto|intros (q & Q1 & Q2); inversion Q1; subst q; exists "/"%char; auto]. }
      assert (CN : forall b n, (0 < count b n)%nat <-> b = true \/ (0 < n)%nat) by (intros [|] n; cbn [count]; [split; [auto|lia]|split; [auto|intros [Q|Q]; [discriminate|exact Q]]]).
      set (nbr' := count _ nbr). set (nq' := count _ nq). set (ns' := count _ ns).
      assert (FE : (((0 < nbr')%nat \/ exists u, In u l /\ bracket u) /\ ((0 < nq')%nat \/ (0 < ns')%nat \/ exists u, In u l /\ (quote u \/ slash u))) <->
                   (((0 < nbr)%nat \/ exists u, In u (t :: l) /\ bracket u) /\ ((0 < nq)%nat \/ (0 < ns)%nat \/ exists u, In u (t :: l) /\ (quote u \/ slash u)))).
      { unfold nbr', nq', ns'. rewrite !CN, HB, HQ, HS. clear. split.
        - intros [A B]. split.
          + destruct A as [[A|A]|(u & A & A')]; [right; exists t; split; [left; reflexivity|exact A]|left; exact A|right; exists u; split; [right; exact A|exact A']].
          + destruct B as [[B|B]|[[B|B]|(u & B & B')]]; [right; right; exists t; split; [left; reflexivity|auto]|left; exact B|right; right; exists t; split; [left; reflexivity|auto]|right; left; exact B|right; right; exists u; split; [right; exact B|exact B']].
        - intros [A B]. split.
          + destruct A as [A|(u & [<-|A] & A')]; [auto|auto|right; eauto].
          + destruct B as [B|[B|(u & [<-|B] & B')]]; [auto|auto|tauto|right; right; eauto]. }
      destruct (((0 <? nbr')%nat && (0 <? nq')%nat) || ((0 <? nbr')%nat && (0 <? ns')%nat)) eqn:EM.
      * intros [_ Q]. apply (Q ER). apply FE. apply Bool.orb_true_iff in EM. destruct EM as [EM|EM]; apply andb_prop in EM; destruct EM as [E1 E2]; apply Nat.ltb_lt in E1, E2; auto.
      * destruct (filed_add g acc (Inc t pr)) as (g' & A & B & C); [rewrite K; cbn [i_prio]; rewrite KI; exact IS3|rewrite K; exact ND|exact F|]. rewrite A. rewrite K in B.
        specialize (IH false nbr' nq' ns' g' (acc ++ [Inc t pr]) C B). rewrite <- app_assoc in IH. cbn [app] in IH.
        assert (F1 : fine nbr' nq' ns' []). { split; [intros u []|]. intros _ [[Q|(u & [] & _)] [Q2|[Q2|(u2 & [] & _)]]]; apply Bool.orb_false_iff in EM; destruct EM as [E1 E2]; apply Nat.ltb_lt in Q, Q2; rewrite Q, Q2 in *; discriminate. }
        specialize (IH F1).
        assert (FL : fine nbr' nq' ns' l <-> fine nbr nq ns (t :: l)). { unfold fine. rewrite FE. split; intros [Q1 Q2]; (split; [|exact Q2]); intros u Hu; [destruct Hu as [<-|Hu]; [congruence|auto]|apply Q1; right; exact Hu]. }
        destruct (prioritize _ _ _ _ _ _ _ _ _ _ _ g'); tauto.
Qed.

(** Laying out the groups. *)
Lemma without_ids : forall is l, NoDup (ids l) -> NoDup (ids (without is l)).
Proof. intros. apply NoDup_filter_ids. assumption. Qed.
Lemma ids_app : forall a b, ids (a ++ b) = ids a ++ ids b.
Proof. intros. apply map_app. Qed.
Lemma ids_trim : forall l, ids (List.map trim_line l) = ids l.
Proof. intros l. unfold ids. rewrite map_map. apply map_ext. apply trim_id. Qed.
Definition all_toks (g : groups) : list ptok := toks (concat (List.map snd g)).
Lemma emit_spec : forall is g st pre rest, filed g is -> NoDup (keys g) -> s_prefixes st = pre ++ rest -> NoDup (ids (pre ++ rest)) -> (forall i, In i (ids (pre ++ rest)) -> (i < s_next st)%nat) ->
  NoDup (ids (toks is)) -> (forall i, In i is -> In (pr_group (i_prio i)) (keys g) -> In (i_tk i) rest) ->
  exists out next, emit qsort regroup g st (last_id pre) = State (pre ++ out ++ without (ids (all_toks g)) rest) next (s_includes st) (s_after st) (s_ignore st) (s_bad st) /\ (s_next st <= next)%nat /\
  laid is (keys (filter (fun e => negb (length (snd e) =? 0)%nat) g)) out /\ NoDup (ids out) /\ (forall i, In i (ids out) -> In i (ids (all_toks g)) \/ (s_next st <= i < next)%nat).
Proof.
  induction g as [|[k l] g IH]; intros st pre rest F K E N B NI IN.
  - exists [], (s_next st). cbn [emit]. unfold all_toks. cbn [List.map concat toks ids]. rewrite without_nil. cbn [app]. rewrite <- E. split; [destruct st; reflexivity|]. split; [lia|]. split; [constructor|]. split; [constructor|intros i []].
  - cbn [emit]. assert (FL : l = in_group k is) by (apply F; left; reflexivity). assert (FG : filed g is) by (intros k' l' H; apply F; right; exact H). cbn [keys List.map fst] in K. inversion K as [|? ? K1 K2]; subst.
    destruct (in_group k is) as [|x r] eqn:EG.
    + destruct (IH st pre rest FG K2 E N B NI) as (out & next & A1 & A2 & A3 & A4 & A5); [intros i Hi Hk; apply IN; [exact Hi|right; exact Hk]|]. exists out, next. unfold all_toks in *. cbn [filter snd length Nat.eqb negb List.map concat app]. auto.
    + rewrite <- EG in *. destruct (QS include include_cmp include_consistent (in_group k is)) as [QP QSS]. set (gs := qsort include include_cmp (in_group k is)) in *.
      assert (TP : Permutation (ids (toks (in_group k is))) (ids (toks gs))) by (apply Permutation_map, Permutation_map; exact QP).
      assert (NG : NoDup (ids (toks (in_group k is)))). { clear - NI. unfold in_group. induction is as [|i is IH]; [constructor|]. cbn [toks List.map ids filter] in *. inversion NI as [|? ? N1 N2]; subst. destruct (_ =? k); [|auto]. cbn [toks List.map ids]. constructor; [|auto]. intros Q. apply N1. unfold toks in *. rewrite map_map in *. apply in_map_iff in Q. destruct Q as (y & Y1 & Y2). apply filter_In in Y2. apply in_map_iff. exists y. tauto. }
      assert (NGS : NoDup (ids (toks gs))) by (eapply Permutation_NoDup; eauto).
      assert (GI : forall i, In i gs -> In i is /\ pr_group (i_prio i) = k). { intros i Hi. apply (Permutation_in i (Permutation_sym QP)) in Hi. unfold in_group in Hi. apply filter_In in Hi. destruct Hi as [H1 H2]. apply Z.eqb_eq in H2. auto. }
      assert (GR : forall i, In i gs -> In (i_tk i) rest) by (intros i Hi; destruct (GI i Hi) as [H1 H2]; apply IN; [exact H1|left; cbn [fst]; auto]).
      assert (GNE : gs <> []) by (intros Q; rewrite Q in QP; apply Permutation_sym, Permutation_nil in QP; congruence).
      rewrite (place_spec gs st pre rest E N NGS GR). set (pre' := pre ++ List.map trim_line (toks gs)). set (rest' := without (ids (toks gs)) rest).
      rewrite ids_app in N. apply nodup_app in N. destruct N as (NP & NR & ND).
      assert (NN : NoDup (ids (pre' ++ rest'))). { unfold pre'. rewrite !ids_app, ids_trim. apply nodup_app. split; [|split].
        - apply nodup_app. split; [exact NP|]. split; [exact NGS|]. intros y Hy Q. apply (ND y Hy). unfold ids, toks in Q. rewrite map_map in Q. apply in_map_iff in Q. destruct Q as (i & <- & Hi). apply in_map. auto.
        - apply without_ids. exact NR.
        - intros y Hy Q. unfold ids in Q. apply in_map_iff in Q. destruct Q as (t & <- & Ht). apply without_in in Ht. destruct Ht as [T1 T2]. apply in_app_or in Hy. destruct Hy as [Hy|Hy]; [apply (ND _ Hy); apply in_map; exact T1|contradiction]. }
      assert (BB : forall i, In i (ids (pre' ++ rest')) -> (i < s_next st)%nat). { intros i Hi. apply B. unfold pre' in Hi. rewrite !ids_app, ids_trim in Hi. rewrite ids_app. apply in_or_app. apply in_app_or in Hi. destruct Hi as [Hi|Hi]; [apply in_app_or in Hi; destruct Hi as [Hi|Hi]; [auto|right]|right].
        - unfold ids, toks in Hi. rewrite map_map in Hi. apply in_map_iff in Hi. destruct Hi as (j & <- & Hj). apply in_map. auto.
        - unfold ids in Hi. apply in_map_iff in Hi. destruct Hi as (t & <- & Ht). apply without_in in Ht. apply in_map. tauto. }
      assert (NIK : forall i, In i is -> In (pr_group (i_prio i)) (keys g) -> ~ In (p_id (i_tk i)) (ids (toks gs))). { intros i Hi Hk Q. unfold ids, toks in Q. rewrite map_map in Q. apply in_map_iff in Q. destruct Q as (j & J1 & J2). destruct (GI j J2) as [J3 J4]. assert (i = j). { clear - NI Hi J3 J1. unfold ids, toks in NI. rewrite map_map in NI. induction is as [|x is IH]; [destruct Hi|]. cbn [List.map] in NI. inversion NI as [|? ? N1 N2]; subst. destruct Hi as [->|Hi], J3 as [->|J3]; [reflexivity| | |auto].
            - exfalso. apply N1. rewrite <- J1. apply (in_map (fun x => p_id (i_tk x))). exact J3.
            - exfalso. apply N1. rewrite J1. apply (in_map (fun x => p_id (i_tk x))). exact Hi. }
          subst j. rewrite J4 in Hk. contradiction. }
      assert (WA : forall tl, without (ids (all_toks g)) (without (ids (toks gs)) tl) = without (ids (all_toks ((k, in_group k is) :: g))) tl).
      { intros tl. rewrite <- without_app. unfold without. apply filter_ext. intros z. f_equal. unfold all_toks. cbn [List.map snd concat]. unfold toks. rewrite map_app, ids_app, !existsb_app. f_equal. apply Bool.eq_iff_eq_true. rewrite !existsb_exists. split; intros (y & Y1 & Y2); exists y; split; auto; [eapply Permutation_in; [apply Permutation_sym; exact TP|exact Y1]|eapply Permutation_in; [exact TP|exact Y1]]. }
      assert (LEN : filter (fun e : Z * list include => negb (length (snd e) =? 0)%nat) ((k, in_group k is) :: g) = (k, in_group k is) :: filter (fun e => negb (length (snd e) =? 0)%nat) g) by (cbn [filter snd]; rewrite EG; reflexivity).
      assert (LAST : has_verbatim_line (i_tk (last (in_group k is) x)) 2 = match rev (in_group k is) with i :: _ => has_verbatim_line (i_tk i) 2 | [] => false end).
      { destruct (exists_last (l := in_group k is)) as (l0 & y & EL); [rewrite EG; discriminate|]. rewrite EL, last_last, rev_app_distr. reflexivity. }
      assert (IDS : forall i, In i (ids (toks gs)) -> In i (ids (all_toks ((k, in_group k is) :: g)))). { intros i Hi. unfold all_toks. cbn [List.map snd concat]. unfold toks. rewrite map_app, ids_app. apply in_or_app. left. eapply Permutation_in; [apply Permutation_sym; exact TP|exact Hi]. }
      assert (IDG : forall i, In i (ids (all_toks g)) -> In i (ids (all_toks ((k, in_group k is) :: g)))). { intros i Hi. unfold all_toks. cbn [List.map snd concat]. unfold toks. rewrite map_app, ids_app. apply in_or_app. right. exact Hi. }
      assert (GD : forall i, In i (ids (all_toks g)) -> In i (ids (toks gs)) -> False). { intros i Hi Q. unfold all_toks, ids, toks in Hi. rewrite map_map in Hi. apply in_map_iff in Hi. destruct Hi as (j & <- & Hj). apply in_concat in Hj. destruct Hj as (l1 & L1 & L2). apply in_map_iff in L1. destruct L1 as ([k1 l1'] & L3 & L4). cbn [snd] in L3. subst l1'. pose proof (FG _ _ L4) as FF. subst l1. unfold in_group in L2. apply filter_In in L2. destruct L2 as [L2 L5]. apply Z.eqb_eq in L5. apply (NIK j L2); [|exact Q]. rewrite L5. apply (in_map fst) in L4. exact L4. }
      rewrite LAST. set (doline := regroup || _). destruct doline eqn:ED; subst doline; unfold add_line; cbn [upd_pre s_next s_prefixes s_includes s_after s_ignore s_bad].
      * set (ln := line_token (s_next st)). assert (NP' : NoDup (ids pre')) by (rewrite ids_app in NN; apply nodup_app in NN; tauto).
        destruct (insert_last pre' ln rest' NP') as [I1 I2]. rewrite I1.
        assert (LI : exists j, last_id pre' = Some j /\ mem_id j (pre' ++ rest') = true). { unfold insert_bad in I2. destruct (last_id pre') as [j|] eqn:EJ; [exists j; split; [reflexivity|apply Bool.negb_false_iff in I2; exact I2]|]. exfalso. unfold last_id in EJ. destruct (rev pre') eqn:ER; [|discriminate]. apply (f_equal (@rev _)) in ER. rewrite rev_involutive in ER. cbn in ER. unfold pre' in ER. apply app_eq_nil in ER. destruct ER as [_ ER]. destruct gs; [congruence|discriminate]. }
        destruct LI as (j & J1 & J2). rewrite J1, J2. cbn [negb]. rewrite Bool.orb_false_r. change (Some (s_next st)) with (Some (p_id ln)). rewrite <- (last_id_snoc pre' ln).
        destruct (IH (State ((pre' ++ [ln]) ++ rest') (S (s_next st)) (s_includes st) (s_after st) (s_ignore st) (s_bad st)) (pre' ++ [ln]) rest' FG K2 eq_refl) as (out & next & A1 & A2 & A3 & A4 & A5).
        -- rewrite !ids_app in *. apply nodup_app in NN. destruct NN as (M1 & M2 & M3). apply nodup_app. split; [apply nodup_app; split; [exact M1|split; [repeat constructor; intros []|]]|split; [exact M2|]].
           ++ intros y Hy [<-|[]]. specialize (BB (s_next st) ltac:(apply in_or_app; left; exact Hy)). lia.
           ++ intros y Hy Q. apply in_app_or in Hy. destruct Hy as [Hy|[<-|[]]]; [exact (M3 y Hy Q)|]. specialize (BB (s_next st) ltac:(apply in_or_app; right; exact Q)). lia.
        -- cbn [s_next]. intros i Hi. rewrite !ids_app in Hi. apply in_app_or in Hi. destruct Hi as [Hi|Hi]; [apply in_app_or in Hi; destruct Hi as [Hi|[<-|[]]]|].
           ++ specialize (BB i ltac:(rewrite ids_app; apply in_or_app; left; exact Hi)). lia.
           ++ cbn. lia.
           ++ specialize (BB i ltac:(rewrite ids_app; apply in_or_app; right; exact Hi)). lia.
        -- exact NI.
        -- intros i Hi Hk. apply without_in. split; [apply IN; [exact Hi|right; exact Hk]|]. apply NIK; assumption.
        -- cbn [s_next s_includes s_after s_ignore s_bad] in *. exists (List.map trim_line (toks gs) ++ [ln] ++ out), next. rewrite A1. split; [f_equal; unfold pre'; unfold rest'; rewrite WA, <- !app_assoc; reflexivity|]. split; [lia|]. rewrite LEN. cbn [keys List.map fst]. split; [|split].
           ++ constructor; auto. unfold line_after. rewrite ED. eexists. reflexivity.
           ++ rewrite !ids_app, ids_trim. apply nodup_app. split; [exact NGS|]. split; [cbn [app ids List.map]; constructor; [|exact A4]|].
              ** intros Q. destruct (A5 _ Q) as [Q2|Q2]; [|cbn in Q2; lia]. cbn [ln line_token p_id] in Q2. specialize (BB (s_next st)). unfold all_toks, ids, toks in Q2. rewrite map_map in Q2. apply in_map_iff in Q2. destruct Q2 as (i & Q3 & Q4). apply in_concat in Q4. destruct Q4 as (l1 & L1 & L2). apply in_map_iff in L1. destruct L1 as ([k1 l1'] & L3 & L4). cbn [snd] in L3. subst l1'. pose proof (FG _ _ L4) as FF. subst l1. unfold in_group in L2. apply filter_In in L2. destruct L2 as [L2 L5]. apply Z.eqb_eq in L5.
                 assert (In (i_tk i) rest) by (apply IN; [exact L2|right; rewrite L5; apply (in_map fst) in L4; exact L4]). specialize (B (p_id (i_tk i)) ltac:(rewrite ids_app; apply in_or_app; right; apply in_map; assumption)). lia.
              ** intros y Hy Q. cbn [app ids List.map] in Q. destruct Q as [<-|Q].
                 --- specialize (BB (s_next st) ltac:(unfold pre'; rewrite !ids_app, ids_trim; apply in_or_app; left; apply in_or_app; right; exact Hy)). lia.
                 --- destruct (A5 y Q) as [Q2|Q2]; [exact (GD y Q2 Hy)|]. specialize (BB y ltac:(unfold pre'; rewrite !ids_app, ids_trim; apply in_or_app; left; apply in_or_app; right; exact Hy)). lia.
           ++ intros i Hi. rewrite !ids_app, ids_trim in Hi. apply in_app_or in Hi. destruct Hi as [Hi|Hi]; [left; auto|]. cbn [app ids List.map ln line_token p_id] in Hi. destruct Hi as [<-|Hi]; [right; lia|]. destruct (A5 i Hi) as [Q|Q]; [left; auto|right; lia].
      * destruct (IH (upd_pre st (pre' ++ rest')) pre' rest' FG K2 eq_refl NN BB NI) as (out & next & A1 & A2 & A3 & A4 & A5); [intros i Hi Hk; apply without_in; split; [apply IN; [exact Hi|right; exact Hk]|]; apply NIK; assumption|].
        cbn [upd_pre s_next s_includes s_after s_ignore s_bad] in A2, A5. exists (List.map trim_line (toks gs) ++ [] ++ out), next. rewrite A1. cbn [upd_pre s_next s_includes s_after s_ignore s_bad]. split; [f_equal; unfold pre'; unfold rest'; rewrite WA, <- !app_assoc; reflexivity|]. split; [lia|]. rewrite LEN. cbn [keys List.map fst]. split; [|split].
        -- constructor; auto. unfold line_after. rewrite ED. reflexivity.
        -- cbn [app]. rewrite !ids_app, ids_trim. apply nodup_app. split; [exact NGS|]. split; [exact A4|]. intros y Hy Q. destruct (A5 y Q) as [Q2|Q2]; [exact (GD y Q2 Hy)|]. specialize (BB y ltac:(unfold pre'; rewrite !ids_app, ids_trim; apply in_or_app; left; apply in_or_app; right; exact Hy)). lia.
        -- intros i Hi. cbn [app] in Hi. rewrite !ids_app, ids_trim in Hi. apply in_app_or in Hi. destruct Hi as [Hi|Hi]; [left; auto|]. destruct (A5 i Hi) as [Q|Q]; [left; auto|right; lia].
Qed.

Lemma notes_true : forall l, notes true l = annotate l.
Proof. destruct l; reflexivity. Qed.
Lemma annotate_toks : forall l, toks (annotate l) = l.
Proof. destruct l as [|t r]; [reflexivity|]. cbn [annotate toks List.map i_tk]. f_equal. unfold toks. rewrite map_map. apply map_id. Qed.
Lemma existsb_negb_forall : forall b, existsb (fun t => diffparse && negb (p_diff t)) b = false -> diffparse = true -> forall t, In t b -> p_diff t = true.
Proof. intros b H D t Ht. destruct (p_diff t) eqn:E; [reflexivity|]. rewrite <- Bool.not_true_iff_false in H. exfalso. apply H. apply existsb_exists. exists t. rewrite D, E. auto. Qed.
Notation exec_ := (exec category matches qsort categories regroup path behind).
Lemma flush_spec : forall st pre b post, s_prefixes st = pre ++ b ++ post -> s_includes st = b -> s_after st = last_id pre -> s_ignore st = existsb (fun t => diffparse && negb (p_diff t)) b -> NoDup (ids (pre ++ b ++ post)) -> (forall i, In i (ids (pre ++ b ++ post)) -> (i < s_next st)%nat) -> b <> [] ->
  exists out next, reset (exec_ st) = State (pre ++ out ++ post) next [] None false (s_bad st) /\ (s_next st <= next)%nat /\ block_result b out /\ NoDup (ids out) /\ (forall i, In i (ids out) -> In i (ids b) \/ (s_next st <= i < next)%nat).
Proof.
  intros st pre b post E I A G N B NE. 
  assert (SAME : ~ sortable b -> reset (exec_ st) = State (pre ++ b ++ post) (s_next st) [] None false (s_bad st) -> exists out next, reset (exec_ st) = State (pre ++ out ++ post) next [] None false (s_bad st) /\ (s_next st <= next)%nat /\ block_result b out /\ NoDup (ids out) /\ (forall i, In i (ids out) -> In i (ids b) \/ (s_next st <= i < next)%nat)).
  { intros S Q. exists b, (s_next st). split; [exact Q|]. split; [lia|]. split; [right; auto|]. split; [|auto]. rewrite !ids_app in N. apply nodup_app in N. destruct N as (_ & N & _). apply nodup_app in N. tauto. }
  unfold exec in *. rewrite I, G in *. destruct (existsb (fun t => diffparse && negb (p_diff t)) b) eqn:EX.
  { apply SAME; [|unfold reset; rewrite E; reflexivity]. intros (_ & Q & _). apply existsb_exists in EX. destruct EX as (t & T1 & T2). apply andb_prop in T2. destruct T2 as [T2 T3]. rewrite (Q T2 t T1) in T3. discriminate. }
  destruct (Nat.ltb_spec (length b) 2) as [L|L].
  { apply SAME; [|unfold reset; rewrite E; reflexivity]. intros (Q & _). lia. }
  destruct init_spec as (IS1 & IS2 & IS3 & IS4 & IS5).
  assert (F0 : filed init []) by (intros k l H; apply IS2 in H; exact H).
  assert (FN : fine 0 0 0 []) by (split; [intros u []|]; intros _ [[Q|(u & [] & _)] _]; lia).
  assert (FS : fine 0 0 0 b <-> sortable b). { unfold fine, sortable. split.
    - intros [Q1 Q2]. split; [exact L|]. split; [apply existsb_negb_forall; exact EX|]. split; [exact Q1|]. intros R [X Y]. apply (Q2 R). auto.
    - intros (Q0 & Q1 & Q2 & Q3). split; [exact Q2|]. intros R [X Y]. apply (Q3 R). split; [destruct X as [X|X]; [lia|exact X]|destruct Y as [Y|[Y|Y]]; [lia|lia|exact Y]]. }
  pose proof (prioritize_spec b true 0 0 0 init [] F0 eq_refl FN) as P. destruct (prioritize _ _ _ _ _ _ _ _ _ _ _ _) as [| |g].
  - apply SAME; [tauto|unfold reset; rewrite E; reflexivity].
  - contradiction.
  - destruct P as (P1 & P2 & P3). cbn [app] in P3. rewrite notes_true in P3.
    assert (KD : NoDup (keys g)). { rewrite P2. clear - IS1. induction IS1 as [|a l S IH F]; constructor; [|exact IH]. intros Q. pose proof (proj1 (Forall_forall _ _) F a Q). lia. }
    assert (GK : forall i, In i (annotate b) -> In (pr_group (i_prio i)) (keys g)).
    { rewrite P2. assert (PK : forall f t, In (pr_group (prio f t)) (keys init)). { intros f t. unfold prio. destruct (path_of t) as [ip|]; [|exact IS3]. destruct regroup; [|exact IS3]. destruct (is_main_include ip path); [exact IS3|]. destruct (find _ categories) as [c|] eqn:EF; [apply find_some in EF; apply IS5; tauto|exact IS4]. }
      intros i Hi. destruct b as [|t r]; [destruct Hi|]. destruct Hi as [<-|Hi]; [apply PK|]. apply in_map_iff in Hi. destruct Hi as (u & <- & _). apply PK. }
    assert (BI : forall i, In i (annotate b) -> In (i_tk i) b). { intros i Hi. rewrite <- (annotate_toks b). apply in_map. exact Hi. }
    destruct (emit_spec (annotate b) g st pre (b ++ post) P3 KD E N B) as (out & next & A1 & A2 & A3 & A4 & A5).
    + rewrite annotate_toks. rewrite !ids_app in N. apply nodup_app in N. destruct N as (_ & N & _). apply nodup_app in N. tauto.
    + intros i Hi _. apply in_or_app. left. apply BI. exact Hi.
    + exists out, next. rewrite A, A1. unfold reset. cbn [s_prefixes s_next s_bad].
      assert (GG : forall k i, In i (annotate b) -> pr_group (i_prio i) = k -> exists l, In (k, l) g /\ In i l).
      { intros k i Hi <-. pose proof (GK i Hi) as Q. unfold keys in Q. apply in_map_iff in Q. destruct Q as ([k l] & Q1 & Q2). cbn [fst] in Q1. subst k. exists l. split; [exact Q2|]. rewrite (P3 _ _ Q2). unfold in_group. apply filter_In. rewrite Z.eqb_refl. auto. }
      assert (AT : forall i, In i (ids (all_toks g)) <-> In i (ids b)). { intros i. unfold all_toks. split; intros H.
        - unfold ids, toks in H. rewrite map_map in H. apply in_map_iff in H. destruct H as (j & <- & H). apply in_concat in H. destruct H as (l & L1 & L2). apply in_map_iff in L1. destruct L1 as ([k l'] & L3 & L4). cbn [snd] in L3. subst l'. rewrite (P3 _ _ L4) in L2. unfold in_group in L2. apply filter_In in L2. apply in_map. apply BI. tauto.
        - rewrite <- (annotate_toks b) in H. unfold ids, toks in H. rewrite map_map in H. apply in_map_iff in H. destruct H as (j & <- & H). destruct (GG _ j H eq_refl) as (l & L1 & L2). unfold ids, toks. rewrite map_map. apply (in_map (fun x => p_id (i_tk x))). apply in_concat. exists l. split; [apply (in_map snd) in L1; exact L1|exact L2]. }
      assert (WB : without (ids (all_toks g)) (b ++ post) = post). { unfold without. rewrite filter_app. rewrite !ids_app in N. apply nodup_app in N. destruct N as (_ & N & _). apply nodup_app in N. destruct N as (_ & _ & N).
        assert (W1 : forall l, (forall t, In t l -> In (p_id t) (ids b)) -> filter (fun x => negb (existsb (Nat.eqb (p_id x)) (ids (all_toks g)))) l = []). { induction l as [|t l IH]; intros H; [reflexivity|]. cbn [filter]. assert (X : existsb (Nat.eqb (p_id t)) (ids (all_toks g)) = true) by (apply existsb_exists; exists (p_id t); split; [apply AT, H; left; reflexivity|apply Nat.eqb_refl]). rewrite X. cbn [negb]. apply IH. intros u Hu. apply H. right. exact Hu. }
        assert (W2 : forall l, (forall t, In t l -> ~ In (p_id t) (ids b)) -> filter (fun x => negb (existsb (Nat.eqb (p_id x)) (ids (all_toks g)))) l = l). { induction l as [|t l IH]; intros H; [reflexivity|]. cbn [filter]. assert (X : existsb (Nat.eqb (p_id t)) (ids (all_toks g)) = false). { apply Bool.not_true_iff_false. intros Q. apply existsb_exists in Q. destruct Q as (y & Y1 & Y2). apply Nat.eqb_eq in Y2. subst y. apply (H t (or_introl eq_refl)). apply AT. exact Y1. } rewrite X. cbn [negb]. f_equal. apply IH. intros u Hu. apply H. right. exact Hu. }
        rewrite W1, W2; [reflexivity| |]; intros t Ht; [intros Q; exact (N _ Q (in_map p_id _ _ Ht))|apply in_map; exact Ht]. }
      rewrite WB. split; [reflexivity|]. split; [exact A2|]. split; [|split; [exact A4|intros i Hi; destruct (A5 i Hi) as [Q|Q]; [left; apply AT; exact Q|right; exact Q]]].
      left. split; [tauto|]. exists (keys (filter (fun e => negb (length (snd e) =? 0)%nat) g)). split; [|split; [|exact A3]].
      * rewrite <- P2 in IS1. clear - IS1. induction g as [|[k l] g IH]; [constructor|]. cbn [keys List.map fst] in IS1. inversion IS1 as [|? ? S1 S2]; subst. cbn [filter snd]. destruct (negb _); [|apply IH; exact S1]. cbn [keys List.map fst]. constructor; [apply IH; exact S1|]. apply Forall_forall. intros x Hx. rewrite Forall_forall in S2. apply S2. unfold keys in *. apply in_map_iff in Hx. destruct Hx as (y & <- & Hy). apply filter_In in Hy. apply in_map. tauto.
      * intros i Hi. destruct (GG _ i Hi eq_refl) as (l & L1 & L2). unfold keys. apply in_map_iff. exists (pr_group (i_prio i), l). split; [reflexivity|]. apply filter_In. split; [exact L1|]. cbn [snd]. destruct l; [destruct L2|reflexivity].
Qed.

(** Reading prefixes: runs of includes are sorted, everything else stays where it is.  A run
    ends at another kind of prefix and, unless regrouping, at an include followed by an
    empty line. *)
Definition ends_run (t : ptok) : bool := negb regroup && has_verbatim_line t 2.
Definition run_ends (b : list ptok) (l : list ptok) : Prop :=
  (exists a t, b = a ++ [t] /\ ends_run t = true) \/ l = [] \/ exists t r, l = t :: r /\ p_inc t = false.
Inductive rearranged : list ptok -> list ptok -> Prop :=
| ra_nil : rearranged [] []
| ra_other t l l' : p_inc t = false -> rearranged l l' -> rearranged (t :: l) (t :: l')
| ra_block b out l l' : b <> [] -> (forall t, In t b -> p_inc t = true) -> (forall a t c, b = a ++ t :: c -> c <> [] -> ends_run t = false) -> run_ends b l -> block_result b out -> rearranged l l' -> rearranged (b ++ l) (out ++ l').

Lemma prev_last : forall pre t pv, ~ In (p_id t) (ids pre) -> prev_of (p_id t) pv (pre ++ [t]) = match last_id pre with Some i => Some i | None => pv end.
Proof.
  induction pre as [|x pre IH]; intros t pv H; [cbn [app prev_of]; rewrite Nat.eqb_refl; reflexivity|]. cbn [app prev_of]. cbn [ids List.map] in H. destruct (Nat.eqb_spec (p_id x) (p_id t)) as [Q|Q]; [exfalso; apply H; left; exact Q|].
  rewrite IH by (intros R; apply H; right; exact R). unfold last_id. cbn [rev]. destruct (rev pre); reflexivity.
Qed.
Notation read1_ := (read1 category matches qsort categories regroup path diffparse true behind).
Notation leave_ := (leave category matches qsort categories regroup path true behind).
Lemma read_spec : forall ts st pre cur, s_prefixes st = pre ++ cur -> s_includes st = cur -> (cur <> [] -> s_after st = last_id pre) -> s_ignore st = existsb (fun t => diffparse && negb (p_diff t)) cur ->
  (forall t, In t cur -> p_inc t = true /\ ends_run t = false) -> NoDup (ids (pre ++ cur ++ ts)) -> (forall i, In i (ids (pre ++ cur ++ ts)) -> (i < s_next st)%nat) ->
  exists out, s_prefixes (leave_ (fold_left read1_ ts st)) = pre ++ out /\ s_bad (leave_ (fold_left read1_ ts st)) = s_bad st /\ rearranged (cur ++ ts) out.
Proof.
  induction ts as [|t ts IH]; intros st pre cur E I A G C N B.
  - cbn [fold_left]. unfold leave. destruct cur as [|c cur].
    + exists []. unfold exec. rewrite I, G. cbn [existsb length Nat.ltb Nat.leb]. unfold reset. cbn [s_prefixes s_bad]. rewrite E. split; [reflexivity|]. split; [reflexivity|constructor].
    + destruct (flush_spec st pre (c :: cur) []) as (out & next & A1 & A2 & A3 & A4 & A5); auto; [rewrite app_nil_r; exact E|apply A; discriminate|discriminate|]. exists out. rewrite A1. cbn [s_prefixes s_bad]. rewrite app_nil_r. split; [reflexivity|]. split; [reflexivity|].
      rewrite <- (app_nil_r out). apply ra_block; auto; [discriminate|intros u Hu; apply C; exact Hu| |right; left; reflexivity|constructor]. intros a u c' EQ _. apply C. rewrite EQ. apply in_or_app. right. left. reflexivity.
  - cbn [fold_left]. set (F := fold_left read1_ ts) in *. clearbody F. set (st1 := read1_ st t).
    assert (NT : ~ In (p_id t) (ids pre)). { rewrite !ids_app in N. apply nodup_app in N. destruct N as (_ & _ & N). intros Q. apply (N _ Q). apply in_or_app. right. left. reflexivity. }
    assert (KEEP : forall out next, NoDup (ids out) -> (forall i, In i (ids out) -> In i (ids (cur ++ [t])) \/ (s_next st <= i < next)%nat) -> (s_next st <= next)%nat ->
       NoDup (ids ((pre ++ out) ++ [] ++ ts)) /\ (forall i, In i (ids ((pre ++ out) ++ [] ++ ts)) -> (i < next)%nat)).
    { intros out next NO IO LE. replace (pre ++ cur ++ t :: ts) with (pre ++ (cur ++ [t]) ++ ts) in N, B by (rewrite <- app_assoc; reflexivity). rewrite ids_app, ids_app in N, B. cbn [app]. rewrite !ids_app. apply nodup_app in N. destruct N as (N1 & N2 & N3). apply nodup_app in N2. destruct N2 as (N2 & N4 & N5). split.
      - apply nodup_app. split; [apply nodup_app; split; [exact N1|split; [exact NO|]]|split; [exact N4|]].
        + intros x Hx Q. destruct (IO x Q) as [Q2|Q2]; [apply (N3 x Hx); apply in_or_app; auto|]. specialize (B x ltac:(apply in_or_app; auto)). lia.
        + intros x Hx Q. apply in_app_or in Hx. destruct Hx as [Hx|Hx]; [apply (N3 x Hx); apply in_or_app; auto|]. destruct (IO x Hx) as [Q2|Q2]; [exact (N5 x Q2 Q)|]. specialize (B x ltac:(apply in_or_app; right; apply in_or_app; auto)). lia.
      - intros i Hi. apply in_app_or in Hi. destruct Hi as [Hi|Hi]; [apply in_app_or in Hi; destruct Hi as [Hi|Hi]|].
        + specialize (B i ltac:(apply in_or_app; auto)). lia.
        + destruct (IO i Hi) as [Q2|Q2]; [specialize (B i ltac:(apply in_or_app; right; apply in_or_app; auto)); lia|lia].
        + specialize (B i ltac:(apply in_or_app; right; apply in_or_app; auto)). lia. }
    assert (NC : NoDup (ids cur)). { rewrite !ids_app in N. apply nodup_app in N. destruct N as (_ & N & _). apply nodup_app in N. tauto. }
    assert (NPC : NoDup (ids (pre ++ cur ++ [t])) /\ (forall i, In i (ids (pre ++ cur ++ [t])) -> (i < s_next st)%nat)).
    { replace (pre ++ cur ++ t :: ts) with ((pre ++ cur ++ [t]) ++ ts) in N, B by (rewrite <- !app_assoc; reflexivity). rewrite ids_app in N, B. apply nodup_app in N. split; [tauto|]. intros i Hi. apply B. apply in_or_app. auto. }
    destruct NPC as [NPC BPC]. unfold st1, read1, add. cbn [negb]. cbn [s_prefixes s_next s_includes s_after s_ignore s_bad]. destruct (p_inc t) eqn:ET.
    + set (st2 := State _ _ _ _ _ _).
      assert (AF : (match s_includes st with [] => prev_of (p_id t) None (s_prefixes st ++ [t]) | _ :: _ => s_after st end) = last_id pre). { rewrite I. destruct cur; [|apply A; discriminate]. rewrite E, app_nil_r, prev_last by exact NT. destruct (last_id pre); reflexivity. }
      assert (IG : s_ignore st || (diffparse && negb (p_diff t)) = existsb (fun t => diffparse && negb (p_diff t)) (cur ++ [t])) by (rewrite G, existsb_app; cbn [existsb]; rewrite Bool.orb_false_r; reflexivity).
      destruct (regroup || negb (has_verbatim_line t 2)) eqn:EV.
      * destruct (IH st2 pre (cur ++ [t])) as (out & O1 & O2 & O3).
        -- unfold st2. cbn [s_prefixes]. rewrite E, app_assoc. reflexivity.
        -- unfold st2. cbn [s_includes]. rewrite I. reflexivity.
        -- intros _. exact AF.
        -- exact IG.
        -- intros u Hu. apply in_app_or in Hu. destruct Hu as [Hu|[<-|[]]]; [apply C; exact Hu|]. split; [exact ET|]. unfold ends_run. destruct regroup; [reflexivity|]. cbn [orb negb andb] in *. destruct (has_verbatim_line t 2); [discriminate|reflexivity].
        -- rewrite <- app_assoc. exact N.
        -- rewrite <- app_assoc. exact B.
        -- exists out. split; [exact O1|]. split; [exact O2|]. rewrite <- app_assoc in O3. exact O3.
      * assert (ER : ends_run t = true) by (unfold ends_run; destruct regroup; [discriminate|]; destruct (has_verbatim_line t 2); [reflexivity|discriminate]).
        destruct (flush_spec st2 pre (cur ++ [t]) []) as (out & next & A1 & A2 & A3 & A4 & A5).
        -- unfold st2. cbn [s_prefixes]. rewrite E, app_nil_r, app_assoc. reflexivity.
        -- unfold st2. cbn [s_includes]. rewrite I. reflexivity.
        -- exact AF.
        -- exact IG.
        -- rewrite app_nil_r. exact NPC.
        -- rewrite app_nil_r. exact BPC.
        -- destruct cur; discriminate.
        -- rewrite A1. destruct (KEEP out next A4 A5 A2) as [K1 K2]. destruct (IH (State (pre ++ out ++ []) next [] None false (s_bad st2)) (pre ++ out) []) as (o2 & O1 & O2 & O3); auto; [cbn [s_prefixes]; rewrite !app_nil_r; reflexivity|intros Q; congruence|intros u []|].
           exists (out ++ o2). rewrite O1, O2. split; [rewrite app_assoc; reflexivity|]. split; [reflexivity|]. replace (cur ++ t :: ts) with ((cur ++ [t]) ++ ts) by (rewrite <- app_assoc; reflexivity). apply ra_block; auto.
           ++ destruct cur; discriminate.
           ++ intros u Hu. apply in_app_or in Hu. destruct Hu as [Hu|[<-|[]]]; [apply C; exact Hu|exact ET].
           ++ intros a u c EQ NE. apply C. destruct (exists_last NE) as (c0 & z & ->). replace (a ++ u :: c0 ++ [z]) with ((a ++ u :: c0) ++ [z]) in EQ by (rewrite <- app_assoc; reflexivity). apply app_inj_tail in EQ. destruct EQ as [-> _]. apply in_or_app. right. left. reflexivity.
           ++ left. exists cur, t. auto.
    + assert (OTHER : exists st' next pre', reset (exec_ (State (s_prefixes st ++ [t]) (s_next st) (s_includes st) (s_after st) (s_ignore st) (s_bad st))) = st' /\ s_prefixes st' = pre ++ pre' ++ [t] /\ s_next st' = next /\ s_includes st' = [] /\ s_ignore st' = false /\ s_bad st' = s_bad st /\ (s_next st <= next)%nat /\
         NoDup (ids pre') /\ (forall i, In i (ids pre') -> In i (ids cur) \/ (s_next st <= i < next)%nat) /\ (cur = [] /\ pre' = [] \/ cur <> [] /\ block_result cur pre')).
      { destruct cur as [|c cur].
        - eexists _, (s_next st), []. split; [reflexivity|]. unfold exec. cbn [s_ignore s_includes]. rewrite G, I. cbn [existsb length Nat.ltb Nat.leb]. unfold reset. cbn [s_prefixes s_next s_includes s_ignore s_bad]. rewrite E, app_nil_r. split; [reflexivity|]. split; [reflexivity|]. split; [reflexivity|]. split; [reflexivity|]. split; [reflexivity|]. split; [lia|]. split; [constructor|]. split; [intros i []|]. left. auto.
        - destruct (flush_spec (State (s_prefixes st ++ [t]) (s_next st) (s_includes st) (s_after st) (s_ignore st) (s_bad st)) pre (c :: cur) [t]) as (out & next & A1 & A2 & A3 & A4 & A5).
          + cbn [s_prefixes]. rewrite E, <- app_assoc. reflexivity.
          + exact I.
          + apply A. discriminate.
          + exact G.
          + exact NPC.
          + exact BPC.
          + discriminate.
          + exists (State (pre ++ out ++ [t]) next [] None false (s_bad st)), next, out. split; [exact A1|]. cbn [s_prefixes s_next s_includes s_ignore s_bad] in *. split; [reflexivity|]. split; [reflexivity|]. split; [reflexivity|]. split; [reflexivity|]. split; [reflexivity|]. split; [exact A2|]. split; [exact A4|]. split; [exact A5|]. right. split; [discriminate|exact A3]. }
      destruct OTHER as (st' & next & pre' & X1 & X2 & X3 & X4 & X5 & X6 & X7 & X8 & X9 & X10). rewrite X1.
      assert (NCT : ~ In (p_id t) (ids cur)). { rewrite !ids_app in NPC. apply nodup_app in NPC. destruct NPC as (_ & Q & _). apply nodup_app in Q. destruct Q as (_ & _ & Q). intros R. apply (Q _ R). left. reflexivity. }
      assert (BT : (p_id t < s_next st)%nat) by (apply BPC; rewrite !ids_app; apply in_or_app; right; apply in_or_app; right; left; reflexivity).
      destruct (KEEP (pre' ++ [t]) next) as [K1 K2].
      { rewrite ids_app. apply nodup_app. split; [exact X8|]. split; [repeat constructor; intros []|]. intros x Hx [Q|[]]. subst x. destruct (X9 _ Hx) as [Q|Q]; [contradiction|lia]. }
      { intros i Hi. rewrite ids_app in *. apply in_app_or in Hi. destruct Hi as [Hi|Hi]; [destruct (X9 i Hi) as [Q|Q]; [left; apply in_or_app; auto|auto]|left; apply in_or_app; auto]. }
      { exact X7. }
      destruct (IH st' (pre ++ pre' ++ [t]) []) as (o2 & O1 & O2 & O3).
      * rewrite app_nil_r. exact X2.
      * exact X4.
      * intros Q. congruence.
      * rewrite X5. reflexivity.
      * intros u [].
      * exact K1.
      * rewrite X3. exact K2.
      * exists (pre' ++ t :: o2). rewrite O1, O2, X6. split; [rewrite <- !app_assoc; reflexivity|]. split; [reflexivity|]. destruct X10 as [[-> ->]|[X10 X11]].
        -- cbn [app]. constructor; [exact ET|exact O3].
        -- apply ra_block; auto; [intros u Hu; apply C; exact Hu| |right; right; exists t, ts; auto|constructor; [exact ET|exact O3]]. intros a u c EQ _. apply C. rewrite EQ. apply in_or_app. right. left. reflexivity.
Qed.
End Groups.

(** Reading any prefixes, whatever the categories and the file, no token is lost: blocks of
    includes are put in order, the rest is left alone. *)
Theorem C25_sorted : forall category matches qsort categories regroup path diffparse enabled behind ts next, qsort_ok qsort -> NoDup (ids ts) -> (forall t, In t ts -> (p_id t < next)%nat) ->
  let st := read_all category matches qsort categories regroup path diffparse enabled behind ts next in
  s_bad st = false /\ if enabled then rearranged category matches categories regroup path diffparse behind ts (s_prefixes st) else s_prefixes st = ts.
Proof.
  intros category matches qsort categories regroup path diffparse enabled behind ts next QS N B st. unfold st, read_all. destruct enabled.
  - destruct (read_spec category matches qsort QS categories regroup path diffparse behind ts (State [] next [] None false false) [] []) as (out & O1 & O2 & O3); auto.
    + intros t [].
    + cbn [app s_next]. intros i Hi. unfold ids in Hi. apply in_map_iff in Hi. destruct Hi as (t & <- & Ht). auto.
    + rewrite O1, O2. auto.
  - unfold leave. assert (H : forall ts st, s_prefixes (fold_left (read1 category matches qsort categories regroup path diffparse false behind) ts st) = s_prefixes st ++ ts /\ s_bad (fold_left (read1 category matches qsort categories regroup path diffparse false behind) ts st) = s_bad st).
    { clear. induction ts as [|t ts IH]; intros st; cbn [fold_left]; [rewrite app_nil_r; auto|]. destruct (IH (read1 category matches qsort categories regroup path diffparse false behind st t)) as [A B]. rewrite A, B. unfold read1, add. cbn [negb s_prefixes s_bad]. rewrite <- app_assoc. auto. }
    destruct (H ts (State [] next [] None false false)) as [A C]. rewrite A, C. auto.
Qed.

(** ** What this means. *)
Section Meaning.
Variable category : Type.
Variable matches : category -> bytes -> bool.
Variable categories : list (category * priority).
Variable regroup : bool.
Variable path : bytes.
Variable diffparse : bool.
Variable behind : ptok -> bytes.
Notation rearranged := (rearranged category matches categories regroup path diffparse behind).
Notation annotate := (annotate category matches categories regroup path behind).

(** Empty lines are added, nothing else. *)
Inductive with_lines : list ptok -> list ptok -> Prop :=
| wl_nil : with_lines [] []
| wl_keep t l l' : with_lines l l' -> with_lines (t :: l) (t :: l')
| wl_line id l l' : with_lines l l' -> with_lines l (line_token id :: l').
Definition same_include (a b : ptok) : Prop := b = a \/ b = trim_line a.
Lemma with_lines_refl : forall l, with_lines l l.
Proof. induction l; constructor; assumption. Qed.
Lemma with_lines_app : forall a a' b b', with_lines a a' -> with_lines b b' -> with_lines (a ++ b) (a' ++ b').
Proof. intros a a' b b' H1 H2. induction H1; cbn [app]; [exact H2|constructor; assumption..]. Qed.
Lemma trim_inc : forall t, p_inc (trim_line t) = p_inc t.
Proof. intros t. unfold trim_line. destruct (has_verbatim_line t 2); reflexivity. Qed.
Lemma filter_all : forall A (f : A -> bool) l, (forall x, In x l -> f x = true) -> filter f l = l.
Proof. induction l as [|x l IH]; intros H; [reflexivity|]. cbn. rewrite (H x (or_introl eq_refl)). f_equal. apply IH. intros y Hy. apply H. right. exact Hy. Qed.
Lemma filter_none : forall A (f : A -> bool) l, (forall x, In x l -> f x = false) -> filter f l = [].
Proof. induction l as [|x l IH]; intros H; [reflexivity|]. cbn. rewrite (H x (or_introl eq_refl)). apply IH. intros y Hy. apply H. right. exact Hy. Qed.
Lemma laid_split : forall is ks out, laid regroup is ks out -> (forall i, In i is -> p_inc (i_tk i) = true) -> exists gs, out = out /\ Forall2 (fun k g => Permutation (in_group k is) g) ks gs /\ filter p_inc out = List.map trim_line (toks (concat gs)) /\ with_lines [] (filter (fun t => negb (p_inc t)) out).
Proof.
  intros is ks out H HI. induction H as [|k ks g line out P S NE L H IH].
  - exists []. repeat split; constructor.
  - destruct IH as (gs & _ & G1 & G2 & G3). exists (g :: gs). split; [reflexivity|]. split; [constructor; assumption|]. assert (GI : forall t, In t (List.map trim_line (toks g)) -> p_inc t = true). { intros t Ht. unfold toks in Ht. rewrite map_map in Ht. apply in_map_iff in Ht. destruct Ht as (i & <- & Hi). rewrite trim_inc. apply HI. apply (Permutation_in i (Permutation_sym P)) in Hi. unfold in_group in Hi. apply filter_In in Hi. tauto. }
    rewrite !filter_app. rewrite (filter_all _ p_inc (List.map trim_line (toks g)) GI). rewrite (filter_none _ (fun t => negb (p_inc t)) (List.map trim_line (toks g))) by (intros t Ht; rewrite (GI t Ht); reflexivity). rewrite G2. unfold line_after in L.
    destruct (regroup || _); [destruct L as (id & ->)|subst line]; cbn [filter p_inc line_token negb app concat]; unfold toks; rewrite !map_app; (split; [reflexivity|]); [constructor; exact G3|exact G3].
Qed.
Lemma in_groups_perm : forall ks is gs, NoDup ks -> (forall i, In i is -> In (pr_group (i_prio i)) ks) -> Forall2 (fun k g => Permutation (in_group k is) g) ks gs -> Permutation is (concat gs).
Proof.
  induction ks as [|k ks IH]; intros is gs N H F; inversion F as [|? g ? gs' F1 F2]; subst.
  - destruct is as [|i is]; [constructor|]. destruct (H i (or_introl eq_refl)).
  - inversion N as [|? ? N1 N2]; subst. cbn [concat]. set (rest := filter (fun i => negb (pr_group (i_prio i) =? k)) is).
    assert (S : Permutation is (in_group k is ++ rest)). { unfold in_group, rest. clear. induction is as [|i is IH]; [constructor|]. cbn [filter]. destruct (_ =? k); cbn [negb app]; [constructor; exact IH|]. apply Permutation_cons_app. exact IH. }
    eapply Permutation_trans; [exact S|]. apply Permutation_app; [exact F1|]. apply IH; [exact N2| |].
    + intros i Hi. unfold rest in Hi. apply filter_In in Hi. destruct Hi as [H1 H2]. destruct (H i H1) as [Q|Q]; [rewrite <- Q, Z.eqb_refl in H2; discriminate|exact Q].
    + assert (E : forall k', In k' ks -> in_group k' rest = in_group k' is). { intros k' Hk. unfold in_group, rest. rewrite filter_filter. apply filter_ext_in. intros i _. destruct (Z.eqb_spec (pr_group (i_prio i)) k) as [->|]; [|reflexivity]. cbn [negb andb]. symmetry. apply Z.eqb_neq. intros ->. contradiction. }
      clear - F2 E. induction F2 as [|k' g' ks gs P F2 IH]; constructor; [rewrite E by (left; reflexivity); exact P|]. apply IH. intros k2 Hk. apply E. right. exact Hk.
Qed.
Lemma ss_nodup : forall ks, StronglySorted Z.lt ks -> NoDup ks.
Proof. intros ks S. induction S as [|a l S IH F]; constructor; [|exact IH]. intros Q. pose proof (proj1 (Forall_forall _ _) F a Q). lia. Qed.
Lemma rearranged_kept : forall ts out, rearranged ts out ->
  with_lines (filter (fun t => negb (p_inc t)) ts) (filter (fun t => negb (p_inc t)) out) /\ exists l, Permutation (filter p_inc ts) l /\ Forall2 same_include l (filter p_inc out).
Proof.
  intros ts out H. induction H as [|t l l' I H IH|b out l l' NE I W E R H IH].
  - split; [constructor|exists []; split; constructor].
  - destruct IH as (A & q & B & C). cbn [filter]. rewrite I. cbn [negb]. split; [constructor; exact A|exists q; auto].
  - destruct IH as (A & q & B & C). rewrite !filter_app. rewrite (filter_none _ (fun t => negb (p_inc t)) b) by (intros t Ht; rewrite (I t Ht); reflexivity). rewrite (filter_all _ p_inc b I). destruct R as [[S (ks & K1 & K2 & K3)]|[S ->]].
    + destruct (laid_split _ _ _ K3) as (gs & _ & G1 & G2 & G3). { intros i Hi. apply I. rewrite <- (annotate_toks category matches categories regroup path behind b). apply in_map. exact Hi. }
      split; [apply with_lines_app; [exact G3|exact A]|]. exists (toks (concat gs) ++ q). split.
      * apply Permutation_app; [|exact B]. rewrite <- (annotate_toks category matches categories regroup path behind b) at 1. apply Permutation_map. eapply in_groups_perm; eauto. apply ss_nodup. exact K1.
      * rewrite G2. apply Forall2_app; [|exact C]. generalize (toks (concat gs)) as z. induction z; constructor; [right; reflexivity|assumption].
    + rewrite (filter_none _ (fun t => negb (p_inc t)) b) by (intros t Ht; rewrite (I t Ht); reflexivity). rewrite (filter_all _ p_inc b I). split; [exact A|]. exists (b ++ q). split; [apply Permutation_app; [apply Permutation_refl|exact B]|]. apply Forall2_app; [|exact C]. clear. induction b; constructor; [left; reflexivity|assumption].
Qed.

(** Without regrouping, the text of the prefixes is permuted. *)
Definition text (l : list ptok) : bytes := concat (List.map p_str l).
Lemma text_app : forall a b, text (a ++ b) = text a ++ text b.
Proof. intros. unfold text. rewrite map_app, concat_app. reflexivity. Qed.
Lemma text_perm : forall a b, Permutation a b -> Permutation (text a) (text b).
Proof.
  intros a b H. unfold text. induction H as [|x l l' H IH|x y l|l1 l2 l3 H1 IH1 H2 IH2]; cbn [List.map concat]; [constructor|apply Permutation_app; [apply Permutation_refl|exact IH]| |eapply Permutation_trans; eauto].
  rewrite !app_assoc. apply Permutation_app; [apply Permutation_app_comm|apply Permutation_refl].
Qed.
Lemma verbatim_text : forall t, has_verbatim_line t 2 = true -> p_str t = p_str (trim_line t) ++ [NL].
Proof.
  intros t H. unfold trim_line. rewrite H. cbn [p_str]. unfold has_verbatim_line in H. destruct (rev (p_str t)) as [|c r] eqn:E; [discriminate|]. apply (f_equal (@rev _)) in E. rewrite rev_involutive in E. cbn [rev] in E. rewrite E. cbn [verbatim_rev] in H. destruct (Ascii.eqb_spec c NL) as [->|]; [|discriminate]. rewrite removelast_last. reflexivity.
Qed.
Lemma rearranged_text : forall ts out, regroup = false -> rearranged ts out -> Permutation (text ts) (text out).
Proof.
  intros ts out RG H. induction H as [|t l l' I H IH|b out l l' NE I W E R H IH]; [constructor|unfold text in *; cbn [List.map concat]; apply Permutation_app; [apply Permutation_refl|exact IH]|].
  rewrite !text_app. apply Permutation_app; [|exact IH]. destruct R as [[S (ks & K1 & K2 & K3)]|[S ->]]; [|apply Permutation_refl].
  assert (G0 : forall i, In i (annotate b) -> pr_group (i_prio i) = 0). { assert (P0 : forall f t, pr_group (prio category matches categories regroup path behind f t) = 0) by (intros f t; unfold prio; rewrite RG; destruct (path_of behind t); reflexivity). intros i Hi. destruct b as [|t r]; [destruct Hi|]. destruct Hi as [<-|Hi]; [apply P0|]. apply in_map_iff in Hi. destruct Hi as (u & <- & _). apply P0. }
  assert (KZ : forall k, In k ks -> k = 0). { clear - K3 G0. induction K3 as [|k ks g line out P S NE L H IH]; intros k' Hk; [destruct Hk|]. destruct Hk as [<-|Hk]; [|auto]. destruct g as [|i g]; [congruence|]. assert (Hi : In i (in_group k (annotate b))) by (eapply Permutation_in; [apply Permutation_sym; exact P|left; reflexivity]). unfold in_group in Hi. apply filter_In in Hi. destruct Hi as [H1 H2]. apply Z.eqb_eq in H2. rewrite <- H2. apply G0. exact H1. }
  pose proof (annotate_toks category matches categories regroup path behind b) as AT. set (an := annotate b) in *. clearbody an. assert (AN : an = [] -> b = []) by (intros Q; rewrite Q in AT; symmetry; exact AT). assert (AT' : toks an = b /\ True) by auto. clear AT.
  destruct ks as [|k [|k2 ks]].
  - destruct an as [|t r]; [destruct (NE (AN eq_refl))|]. destruct (K2 _ (or_introl eq_refl)).
  - assert (k = 0) as -> by (apply KZ; left; reflexivity). inversion K3 as [|? ? g line out' P SS GN L H' E1 E2]; subst. inversion H'; subst. rewrite app_nil_r. rewrite text_app. destruct AT' as [AT _].
    assert (IG : in_group 0 an = an) by (apply filter_all; intros i Hi; apply Z.eqb_eq; apply G0; exact Hi). rewrite IG in *.
    assert (PB : Permutation b (toks g)) by (rewrite <- AT at 1; apply Permutation_map; exact P).
    destruct (exists_last NE) as (a & t & EB).
    assert (TA : forall u, In u a -> trim_line u = u). { intros u Hu. apply in_split in Hu. destruct Hu as (a1 & a2 & ->). rewrite <- app_assoc in EB. cbn [app] in EB. pose proof (W _ _ _ EB ltac:(destruct a2; discriminate)) as Q. unfold ends_run in Q. cbn [negb andb] in Q. unfold trim_line. rewrite Q. reflexivity. }
    assert (LT : line_after false an line -> line = if has_verbatim_line t 2 then line else []). { intros Q. unfold line_after in Q. cbn [orb] in Q. assert (RV : exists i r, rev an = i :: r /\ i_tk i = t). { assert (TR : List.map i_tk (rev an) = t :: rev a) by (rewrite map_rev; fold (toks an); rewrite AT, EB, rev_app_distr; reflexivity). destruct (rev an) as [|i r]; [discriminate|]. inversion TR. eauto. } destruct RV as (i & r & R1 & R2). rewrite R1, R2 in Q. destruct (has_verbatim_line t 2); [reflexivity|exact Q]. }
    assert (LT2 : has_verbatim_line t 2 = true -> text line = [NL]). { intros Q. unfold line_after in L. cbn [orb] in L. assert (RV : exists i r, rev an = i :: r /\ i_tk i = t). { assert (TR : List.map i_tk (rev an) = t :: rev a) by (rewrite map_rev; fold (toks an); rewrite AT, EB, rev_app_distr; reflexivity). destruct (rev an) as [|i r]; [discriminate|]. inversion TR. eauto. } destruct RV as (i & r & R1 & R2). rewrite R1, R2, Q in L. destruct L as (id & ->). reflexivity. }
    assert (PT : Permutation (text (List.map trim_line (toks g)) ++ text line) (text (List.map trim_line b) ++ text line)) by (apply Permutation_app; [apply text_perm, Permutation_map, Permutation_sym; exact PB|apply Permutation_refl]).
    eapply Permutation_trans; [|apply Permutation_sym; exact PT]. rewrite EB, map_app. rewrite !text_app. cbn [List.map]. assert (MA : List.map trim_line a = a) by (clear - TA; induction a as [|u a IH]; [reflexivity|]; cbn [List.map]; rewrite TA by (left; reflexivity); f_equal; apply IH; intros v Hv; apply TA; right; exact Hv). rewrite MA, <- app_assoc. apply Permutation_app; [apply Permutation_refl|].
    destruct (has_verbatim_line t 2) eqn:EV.
    + rewrite LT2 by reflexivity. unfold text. cbn [List.map concat]. rewrite !app_nil_r. rewrite (verbatim_text t EV). apply Permutation_refl.
    + rewrite (LT L). unfold trim_line, text. rewrite EV. cbn [List.map concat]. rewrite !app_nil_r. apply Permutation_refl.
  - exfalso. inversion K1 as [|? ? _ F]; subst. pose proof (proj1 (Forall_forall _ _) F k2 (or_introl eq_refl)). rewrite (KZ k (or_introl eq_refl)), (KZ k2 (or_intror (or_introl eq_refl))) in *. lia.
Qed.
End Meaning.

(** Every include is there exactly once, at most shorter by an empty line that followed; other
    prefixes keep their order and only empty lines are added. *)
Theorem C25_permuted : forall category matches qsort categories regroup path diffparse enabled behind ts next, qsort_ok qsort -> NoDup (ids ts) -> (forall t, In t ts -> (p_id t < next)%nat) ->
  let out := s_prefixes (read_all category matches qsort categories regroup path diffparse enabled behind ts next) in
  with_lines (filter (fun t => negb (p_inc t)) ts) (filter (fun t => negb (p_inc t)) out) /\
  (exists l, Permutation (filter p_inc ts) l /\ Forall2 same_include l (filter p_inc out)) /\
  (regroup = false -> Permutation (text ts) (text out)).
Proof.
  intros category matches qsort categories regroup path diffparse enabled behind ts next QS N B out. destruct (C25_sorted category matches qsort categories regroup path diffparse enabled behind ts next QS N B) as [_ H]. fold out in H. destruct enabled.
  - destruct (rearranged_kept _ _ _ _ _ _ _ _ _ H) as [A C]. split; [exact A|]. split; [exact C|]. intros R. eapply rearranged_text; eauto.
  - rewrite H. split; [apply with_lines_refl|]. split; [exists (filter p_inc ts); split; [apply Permutation_refl|]; induction (filter p_inc ts); constructor; [left; reflexivity|assumption]|]. intros _. apply Permutation_refl.
Qed.

(** ** C26: the path of a directive. *)
Definition closing (d : byte) : byte := if d =c DQ then DQ else ">"%char.
(** [p] is the path of the directive, the first [len] bytes of [mem], up to one byte more. *)
Definition delimited (mem : bytes) (len : nat) (pre p rest : bytes) : Prop :=
  mem = pre ++ p ++ rest /\ (length pre < len)%nat /\ (length pre + length p <= S len)%nat /\
  exists d body, p = d :: body ++ [closing d] /\ ~ In (closing d) body /\ ~ In d pre /\
    (d = DQ \/ d = "<"%char /\ ~ In DQ (firstn len mem)).
Lemma memchr_some : forall s c n k, memchr s c n = Some k -> (k < n)%nat /\ (k < length s)%nat /\ s = firstn k s ++ c :: skipn (S k) s /\ ~ In c (firstn k s).
Proof.
  induction s as [|x s IH]; intros c n k H; destruct n as [|n]; try discriminate. cbn [memchr] in H. destruct (Ascii.eqb_spec x c) as [->|NE].
  - inversion H; subst k. cbn. repeat split; try lia.
  - destruct (memchr s c n) as [j|] eqn:E; [|discriminate]. inversion H; subst k. destruct (IH _ _ _ E) as (A & B & C & D). cbn [length firstn skipn app In]. repeat split; try lia; [f_equal; exact C|]. intros [Q|Q]; [congruence|contradiction].
Qed.
Lemma memchr_none : forall s c n, memchr s c n = None -> ~ In c (firstn n s).
Proof.
  induction s as [|x s IH]; intros c n H; destruct n as [|n]; cbn [firstn In]; try tauto. cbn [memchr] in H. destruct (Ascii.eqb_spec x c) as [->|NE]; [discriminate|]. destruct (memchr s c n) eqn:E; [discriminate|]. intros [Q|Q]; [congruence|]. exact (IH _ _ E Q).
Qed.
Lemma find_close : forall mem len k d, nth_error mem k = Some d -> (k < len)%nat -> mem = firstn k mem ++ d :: skipn (S k) mem -> ~ In d (firstn k mem) -> (d = DQ \/ d = "<"%char /\ ~ In DQ (firstn len mem)) ->
  match memchr (skipn (S k) mem) (closing d) (len - k) with
  | Some e => exists pre rest, delimited mem len pre (firstn (S (S e)) (skipn k mem)) rest /\ length pre = k
  | None => True
  end.
Proof.
  intros mem len k d N L E NI D. destruct (memchr _ _ _) as [e|] eqn:M; [|exact I]. destruct (memchr_some _ _ _ _ M) as (A & B & C & F). exists (firstn k mem), (skipn (S e) (skipn (S k) mem)).
  assert (KL : length (firstn k mem) = k). { apply firstn_length_le. assert (k < length mem)%nat by (apply nth_error_Some; congruence). lia. }
  assert (P : firstn (S (S e)) (skipn k mem) = d :: firstn e (skipn (S k) mem) ++ [closing d]).
  { assert (SK : skipn k mem = d :: skipn (S k) mem). { rewrite E at 1. rewrite skipn_app, KL, Nat.sub_diag, skipn_all2 by lia. reflexivity. } rewrite SK. rewrite firstn_cons. f_equal. set (q := skipn (S k) mem) in *. clearbody q. rewrite C at 1. rewrite firstn_app. rewrite firstn_length_le by lia. replace (S e - e)%nat with 1%nat by lia. rewrite firstn_all2 by (rewrite firstn_length; lia). reflexivity. }
  split; [|exact KL]. repeat split.
  - rewrite P. rewrite E at 1. f_equal. cbn [app]. f_equal. rewrite <- app_assoc. cbn [app]. exact C.
  - lia.
  - rewrite P, KL. cbn [length]. rewrite app_length, firstn_length_le by lia. cbn. lia.
  - exists d, (firstn e (skipn (S k) mem)). repeat split; assumption.
Qed.

(** The text between the first matching delimiters, within the directive and one more byte. *)
Theorem C26_path_partial : forall mem len, (len <= length mem)%nat -> match findpath mem len with
  | (Some p, n) => (exists pre rest, delimited mem len pre p rest) /\ (n <= S len)%nat
  | (None, n) => (~ exists pre p rest, delimited mem len pre p rest) /\ (n <= S len)%nat
  end.
Proof.
  intros mem len L. unfold findpath. destruct (memchr mem DQ len) as [k|] eqn:Q.
  - destruct (memchr_some _ _ _ _ Q) as (A & B & C & D). assert (NK : nth k mem NUL = DQ) by (rewrite C at 1; rewrite app_nth2; rewrite firstn_length_le by lia; [rewrite Nat.sub_diag; reflexivity|lia]). rewrite NK. assert (NE : nth_error mem k = Some DQ) by (rewrite <- NK; apply nth_error_nth'; lia). pose proof (find_close mem len k DQ NE A C D (or_introl eq_refl)) as H. change (closing DQ) with DQ in H. rewrite Ascii.eqb_refl. destruct (memchr (skipn (S k) mem) DQ (len - k)) as [e|] eqn:M.
    + destruct H as (pre & rest & H & _). split; [eauto|]. destruct (memchr_some _ _ _ _ M) as (A' & _). cbn [seen]. lia.
    + split; [|cbn [seen]; lia]. intros (pre & p & rest & H1 & H2 & H3 & d & body & H4 & H5 & H6 & H7). apply (memchr_none _ _ _ M).
      destruct H7 as [->|[-> H7]]; [|exfalso; apply H7; rewrite C; rewrite firstn_app; apply in_or_app; right; rewrite firstn_length_le by lia; destruct (len - k)%nat eqn:Z; [lia|left; reflexivity]].
      assert (PK : length pre = k). { rewrite H1, H4 in NK, D. destruct (lt_eq_lt_dec (length pre) k) as [[Z|Z]|Z]; [|exact Z|].
        - exfalso. apply D. rewrite firstn_app. apply in_or_app. right. destruct (k - length pre)%nat eqn:Y; [lia|left; reflexivity].
        - exfalso. apply H6. rewrite app_nth1 in NK by lia. rewrite <- NK. apply nth_In. exact Z. }
      rewrite H1, H4. change (pre ++ (DQ :: body ++ [closing DQ]) ++ rest) with (pre ++ [DQ] ++ (body ++ [DQ]) ++ rest). rewrite app_assoc. rewrite skipn_app. rewrite skipn_all2 by (rewrite app_length; cbn; lia). rewrite app_length. replace (S k - (length pre + length [DQ]))%nat with 0%nat by (change (length [DQ]) with 1%nat; lia). cbn [app skipn]. rewrite <- app_assoc. rewrite firstn_app. apply in_or_app. right. rewrite H4 in H3. cbn [length] in H3. rewrite app_length in H3. cbn [length] in H3. cbn [app]. destruct (len - k - length body)%nat eqn:Y; [lia|left; reflexivity].
  - destruct (memchr mem "<"%char len) as [k|] eqn:Q2.
    + destruct (memchr_some _ _ _ _ Q2) as (A & B & C & D). assert (NK : nth k mem NUL = "<"%char) by (rewrite C at 1; rewrite app_nth2; rewrite firstn_length_le by lia; [rewrite Nat.sub_diag; reflexivity|lia]). rewrite NK. assert (NE : nth_error mem k = Some "<"%char) by (rewrite <- NK; apply nth_error_nth'; lia). pose proof (find_close mem len k "<"%char NE A C D (or_intror (conj eq_refl (memchr_none _ _ _ Q)))) as H. change (closing "<"%char) with ">"%char in H. change ("<"%char =c DQ) with false. cbv iota. destruct (memchr (skipn (S k) mem) ">"%char (len - k)) as [e|] eqn:M.
      * destruct H as (pre & rest & H & _). split; [eauto|]. destruct (memchr_some _ _ _ _ M) as (A' & _). cbn [seen]. lia.
      * split; [|cbn [seen]; lia]. intros (pre & p & rest & H1 & H2 & H3 & d & body & H4 & H5 & H6 & H7). apply (memchr_none _ _ _ M).
        destruct H7 as [->|[-> H7]]; [exfalso; apply (memchr_none _ _ _ Q); rewrite H1, H4; rewrite firstn_app; apply in_or_app; right; destruct (len - length pre)%nat eqn:Z; [lia|left; reflexivity]|].
        assert (PK : length pre = k). { rewrite H1, H4 in NK, D. destruct (lt_eq_lt_dec (length pre) k) as [[Z|Z]|Z]; [|exact Z|].
          - exfalso. apply D. rewrite firstn_app. apply in_or_app. right. destruct (k - length pre)%nat eqn:Y; [lia|left; reflexivity].
          - exfalso. apply H6. rewrite app_nth1 in NK by lia. rewrite <- NK. apply nth_In. exact Z. }
        rewrite H1, H4. change (pre ++ ("<"%char :: body ++ [closing "<"%char]) ++ rest) with (pre ++ ["<"%char] ++ (body ++ [">"%char]) ++ rest). rewrite app_assoc. rewrite skipn_app. rewrite skipn_all2 by (rewrite app_length; cbn; lia). rewrite app_length. replace (S k - (length pre + length ["<"%char]))%nat with 0%nat by (change (length ["<"%char]) with 1%nat; lia). cbn [app skipn]. rewrite <- app_assoc. rewrite firstn_app. apply in_or_app. right. rewrite H4 in H3. cbn [length] in H3. rewrite app_length in H3. cbn [length] in H3. cbn [app]. destruct (len - k - length body)%nat eqn:Y; [lia|left; reflexivity].
    + split; [|cbn [seen]; lia]. intros (pre & p & rest & H1 & H2 & H3 & d & body & H4 & H5 & H6 & H7). assert (HI : In d (firstn len mem)) by (rewrite H1, H4; rewrite firstn_app; apply in_or_app; right; destruct (len - length pre)%nat eqn:Z; [lia|left; reflexivity]).
      destruct H7 as [->|[-> H7]]; [exact (memchr_none _ _ _ Q HI)|exact (memchr_none _ _ _ Q2 HI)].
Qed.

(** A path closed within the directive is found without a look outside, whatever follows. *)
Theorem C26_closed : forall dir behind pre d body post, dir = pre ++ d :: body ++ closing d :: post ->
  ~ In d pre -> ~ In (closing d) body -> d = DQ \/ d = "<"%char /\ ~ In DQ dir ->
  exists n, findpath (dir ++ behind) (length dir) = (Some (d :: body ++ [closing d]), n) /\ (n <= length dir)%nat.
Proof.
  assert (MC : forall a c b n, ~ In c a -> (length a < n)%nat -> memchr (a ++ c :: b) c n = Some (length a)).
  { induction a as [|x a IH]; intros c b n H L; destruct n as [|n]; cbn [length] in L; try lia; cbn [app memchr length].
    - rewrite Ascii.eqb_refl. reflexivity.
    - destruct (Ascii.eqb_spec x c) as [->|]; [exfalso; apply H; left; reflexivity|]. rewrite IH; [reflexivity|intros Q; apply H; right; exact Q|lia]. }
  assert (MN : forall s c n, ~ In c (firstn n s) -> memchr s c n = None).
  { induction s as [|x s IH]; intros c n H; destruct n as [|n]; try reflexivity. cbn [firstn In] in H. cbn [memchr]. destruct (Ascii.eqb_spec x c) as [->|]; [tauto|]. rewrite IH by tauto. reflexivity. }
  intros dir behind pre d body post E H1 H2 H3.
  assert (LEN : length dir = (length pre + S (length body + S (length post)))%nat) by (rewrite E, app_length; cbn [length]; rewrite app_length; reflexivity).
  assert (EM : dir ++ behind = pre ++ d :: body ++ closing d :: post ++ behind). { rewrite E. rewrite <- app_assoc. cbn [app]. rewrite <- app_assoc. reflexivity. }
  assert (SO : match memchr (dir ++ behind) DQ (length dir) with Some k => Some k | None => memchr (dir ++ behind) "<"%char (length dir) end = Some (length pre)).
  { destruct H3 as [->|[-> H3]]; [rewrite EM, MC by (try exact H1; lia); reflexivity|]. rewrite MN by (rewrite firstn_app, Nat.sub_diag, firstn_all; cbn [firstn]; rewrite app_nil_r; exact H3). rewrite EM, MC by (try exact H1; lia). reflexivity. }
  assert (QN : (seen (memchr (dir ++ behind) DQ (length dir)) (length dir) <= length dir)%nat). { destruct (memchr (dir ++ behind) DQ (length dir)) eqn:Q; [apply memchr_some in Q; cbn; lia|cbn; lia]. }
  unfold findpath. rewrite SO. assert (NT : nth (length pre) (dir ++ behind) NUL = d) by (rewrite EM, app_nth2, Nat.sub_diag by lia; reflexivity). rewrite NT. fold (closing d).
  assert (SK : skipn (length pre) (dir ++ behind) = d :: body ++ closing d :: post ++ behind) by (rewrite EM, skipn_app, skipn_all, Nat.sub_diag; reflexivity).
  assert (SK1 : skipn (S (length pre)) (dir ++ behind) = body ++ closing d :: post ++ behind). { rewrite EM. change (pre ++ d :: body ++ closing d :: post ++ behind) with (pre ++ [d] ++ body ++ closing d :: post ++ behind). rewrite app_assoc, skipn_app. rewrite skipn_all2 by (rewrite app_length; cbn; lia). rewrite app_length. replace (S (length pre) - (length pre + length [d]))%nat with 0%nat by (change (length [d]) with 1%nat; lia). reflexivity. }
  rewrite SK1, SK, MC by (try exact H2; lia). eexists. split.
  - f_equal. f_equal. rewrite firstn_cons. f_equal. rewrite firstn_app. rewrite firstn_all2 by lia. replace (S (length body) - length body)%nat with 1%nat by lia. reflexivity.
  - cbn [seen]. destruct (memchr (dir ++ behind) DQ (length dir)); cbn [seen] in *; lia.
Qed.

(** An unclosed path makes it look one byte behind the directive, and return it. *)
Theorem C26_overread_refuted : exists dir behind n p, findpath (dir ++ behind) (length dir) = (Some p, n) /\ (length dir < n)%nat /\ (forall q, findpath (dir ++ q :: behind) (length dir) = (Some p, n) -> q = DQ).
Proof.
  exists (s2b "#include ""foo" ++ [NL]), (s2b """bar"""), 15%nat, (s2b """foo" ++ [NL; DQ]). split; [vm_compute; reflexivity|]. split; [vm_compute; lia|]. intros q H. destruct (Ascii.eqb_spec q DQ) as [|NE]; [assumption|]. exfalso. unfold findpath in H. vm_compute in H. destruct q as [[] [] [] [] [] [] [] []]; try discriminate; apply NE; reflexivity.
Qed.
(** A quote in a comment behind the path is taken for the path. *)
Theorem C26_comment_refuted : exists behind, forall n, findpath (s2b "#include <a.h> /* ""b.h"" */" ++ [NL] ++ behind) 27 <> (Some (s2b "<a.h>"), n) /\
  exists n, findpath (s2b "#include <a.h> /* ""b.h"" */" ++ [NL] ++ behind) 27 = (Some (s2b """b.h"""), n).
Proof. exists []. intros n. split; [vm_compute; discriminate|]. eexists. vm_compute. reflexivity. Qed.

(** ** Concrete cases. *)
Fixpoint ins (A : Type) (cmp : A -> A -> Z) (x : A) (l : list A) : list A :=
  match l with [] => [x] | y :: r => if cmp x y <=? 0 then x :: l else y :: ins A cmp x r end.
Fixpoint isort (A : Type) (cmp : A -> A -> Z) (l : list A) : list A := match l with [] => [] | x :: r => ins A cmp x (isort A cmp r) end.
Lemma isort_ok : qsort_ok isort.
Proof.
  intros A cmp [C1 C2] l. induction l as [|x l [P S]]; [split; constructor|]. cbn [isort].
  assert (TOT : forall a b, cmp a b <= 0 \/ cmp b a <= 0) by (intros a b; pose proof (C1 a b); destruct (cmp a b), (cmp b a); cbn in *; lia).
  assert (IP : forall l, Permutation (x :: l) (ins A cmp x l)). { induction l0 as [|y l0 IH]; [apply Permutation_refl|]. cbn [ins]. destruct (_ <=? 0); [apply Permutation_refl|]. eapply Permutation_trans; [apply perm_swap|]. constructor. exact IH. }
  split; [eapply Permutation_trans; [constructor; exact P|apply IP]|]. revert S. generalize (isort A cmp l) as q. clear P. induction q as [|y q IH]; intros S; cbn [ins]; [constructor; constructor|]. inversion S as [|? ? S' F]; subst. destruct (Z.leb_spec (cmp x y) 0).
  - constructor; [exact S|]. constructor; [lia|]. apply Forall_forall. intros z Hz. apply (C2 x y z); [lia|]. exact (proj1 (Forall_forall _ _) F z Hz).
  - constructor; [apply IH; exact S'|]. apply Forall_forall. intros z Hz. apply (Permutation_in z (Permutation_sym (IP q))) in Hz. destruct Hz as [<-|Hz]; [destruct (TOT x y); lia|exact (proj1 (Forall_forall _ _) F z Hz)].
Qed.
Definition ex_inc (id : nat) (s : bytes) : ptok := PTok id true false s.
Definition ex_nl (s : string) : bytes := s2b s ++ [NL].
Definition ex_ts : list ptok :=
  [ PTok 0 false false (ex_nl "/* c */"); ex_inc 1 (ex_nl "#include ""b.h"""); ex_inc 2 (ex_nl "#include ""x.h""");
    ex_inc 3 (ex_nl "#include ""a.h""" ++ [NL]); ex_inc 4 (ex_nl "#include <z.h>"); ex_inc 5 (ex_nl "#include <c.h>"); PTok 6 false false [NL] ].
Lemma ex_meets : NoDup (ids ex_ts) /\ forall t, In t ex_ts -> (p_id t < 7)%nat.
Proof. split; [repeat constructor; cbn; lia|]. intros t H. cbn in H. repeat destruct H as [<-|H]; cbn; try lia. Qed.
(** x.c: without regrouping, the empty line ends the first block and stays behind it. *)
Example C25_ex_keep : List.map p_str (s_prefixes (read_all nat (fun _ _ => false) isort [] false (s2b "src/x.c") false true (fun _ => []) ex_ts 7)) =
  [ ex_nl "/* c */"; ex_nl "#include ""a.h"""; ex_nl "#include ""b.h"""; ex_nl "#include ""x.h"""; [NL]; ex_nl "#include <c.h>"; ex_nl "#include <z.h>"; [NL] ].
Proof. vm_compute. reflexivity. Qed.
Definition ex_match (c : nat) (p : bytes) : bool := match c with O => hd NUL p =c "<"%char | _ => true end.
Example C25_ex_regroup : List.map p_str (s_prefixes (read_all nat ex_match isort [(0%nat, Prio 1 1); (1%nat, Prio 2 2)] true (s2b "src/x.c") false true (fun _ => []) ex_ts 7)) =
  [ ex_nl "/* c */"; ex_nl "#include ""x.h"""; [NL]; ex_nl "#include <c.h>"; ex_nl "#include <z.h>"; [NL]; ex_nl "#include ""a.h"""; ex_nl "#include ""b.h"""; [NL]; [NL] ].
Proof. vm_compute. reflexivity. Qed.
Example C26_ex : findpath (s2b "#include <sys/x.h> /* > */" ++ [NL]) 27 = (Some (s2b "<sys/x.h>"), 27%nat) /\ findpath (s2b "#include ""y.h""" ++ [NL]) 15 = (Some (s2b """y.h"""), 14%nat).
Proof. vm_compute. split; reflexivity. Qed.

Print Assumptions C25_sorted.
Print Assumptions C25_permuted.
Print Assumptions C26_path_partial.
Print Assumptions C26_closed.
Print Assumptions C26_overread_refuted.
Print Assumptions C26_comment_refuted.
