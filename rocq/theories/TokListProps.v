(** Properties C13-C15: editing the list of tokens. *)
From Coq Require Import Permutation.
From Verif Require Import Base TokenModel StreamModel StreamProofs TokListModel TokListProofs StreamProps.

(** ** C13 *)
(** Removing any token but the last: prefixes go in front of those of the next token,
    suffixes after those of the previous one (of the next one if there is none), directives
    refer to the next token, nothing else changes, and nothing but the token is lost. *)
Theorem C13_remove : forall E a tk nx b x, wfl E x -> x_toks x = a ++ tk :: nx :: b ->
  exists y, remove tk x = Some y /\
    removed a tk nx (match rev a with [] => nx | pv :: _ => pv end) b x y /\
    Permutation (whole (x_heap x) (x_toks x)) (tk :: whole (x_heap y) (x_toks y)) /\
    n_pre (x_heap y tk) = [] /\ n_suf (x_heap y tk) = [] /\ n_refs (x_heap y tk) = E tk /\
    wfl E y.
Proof.
  intros E a tk nx b x W Et. destruct (remove_spec E a tk nx b x W Et) as (y & H1 & H2 & _ & H4 & H5 & H6).
  exists y. split; auto. split; auto. split; [eapply removed_whole; eauto; eapply whole_toks; apply (wl_nodup _ _ W)|].
  split; auto. split; auto. split; auto. eapply removed_wfl; eauto.
Qed.

(** The order of what is kept: the suffixes of the token now precede its prefixes. *)
Theorem C13_order : forall E a pv tk nx b x, wfl E x -> x_toks x = (a ++ [pv]) ++ tk :: nx :: b ->
  exists y, remove tk x = Some y /\ let h := x_heap x in
    whole h (x_toks x) = (whole h a ++ n_pre (h pv) ++ pv :: n_suf (h pv)) ++ (n_pre (h tk) ++ tk :: n_suf (h tk)) ++ (n_pre (h nx) ++ nx :: n_suf (h nx) ++ whole h b) /\
    whole (x_heap y) (x_toks y) = (whole h a ++ n_pre (h pv) ++ pv :: n_suf (h pv)) ++ (n_suf (h tk) ++ n_pre (h tk)) ++ (n_pre (h nx) ++ nx :: n_suf (h nx) ++ whole h b).
Proof.
  intros E a pv tk nx b x W Et. destruct (remove_spec E (a ++ [pv]) tk nx b x W Et) as (y & H1 & R & _).
  exists y. split; auto. cbv zeta. rewrite rev_app_distr in R. cbn [rev app] in R.
  assert (Ht := whole_toks _ _ (wl_nodup _ _ W)). rewrite Et in Ht.
  split.
  - rewrite Et. rewrite !whole_app, !whole_cons. change (whole (x_heap x) []) with (@nil id). rewrite app_nil_r, <- !app_assoc. cbn [app]. rewrite <- ?app_assoc. auto.
  - rewrite (rm_toks _ _ _ _ _ _ _ R). destruct (nodup_split _ _ _ Ht) as (N1 & N2).
    assert (N3 : ~ In nx (a ++ [pv]) /\ ~ In nx b) by (apply NoDup_remove_1 in Ht; destruct (nodup_split _ _ _ Ht); auto).
    assert (P1 : pv <> tk) by (intros ->; apply N1; apply in_or_app; right; left; auto).
    assert (P2 : pv <> nx) by (intros ->; apply (proj1 N3); apply in_or_app; right; left; auto).
    assert (P3 : nx <> tk) by (intros ->; apply N2; left; auto).
    assert (P4 : ~ In pv a). { rewrite <- app_assoc in Ht. cbn [app] in Ht. apply (nodup_split _ _ _ Ht). }
    assert (Wa : whole (x_heap y) a = whole (x_heap x) a).
    { apply whole_ext. intros t Hi. split; [apply (rm_pre _ _ _ _ _ _ _ R)|apply (rm_suf _ _ _ _ _ _ _ R)]; intros ->; auto.
      - apply N1; apply in_or_app; auto. - apply (proj1 N3); apply in_or_app; auto. - apply N1; apply in_or_app; auto. }
    assert (Wb : whole (x_heap y) b = whole (x_heap x) b).
    { apply whole_ext. intros t Hi. split; [apply (rm_pre _ _ _ _ _ _ _ R)|apply (rm_suf _ _ _ _ _ _ _ R)]; intros ->; try tauto.
      - apply N2; right; auto. - apply N2; right; auto. - rewrite <- app_assoc in Ht. cbn [app] in Ht. destruct (nodup_split _ _ _ Ht) as (_ & K). apply K. right; right; auto. }
    rewrite !whole_app, !whole_cons. change (whole (x_heap y) []) with (@nil id). rewrite app_nil_r, Wa, Wb.
    rewrite (rm_pre_nx _ _ _ _ _ _ _ R), (rm_suf_pv _ _ _ _ _ _ _ R), (rm_pre _ _ _ _ _ _ _ R pv), (rm_suf _ _ _ _ _ _ _ R nx) by auto.
    rewrite <- !app_assoc. cbn [app]. rewrite <- ?app_assoc. auto.
Qed.

Theorem C13_eof : forall x tk, tyof x tk = T_EOF -> remove tk x = None.
Proof. intros x tk H. unfold remove. rewrite H. auto. Qed.

(** a #if b c; #else d ... : removing b, with a comment and the directive in front of it. *)
Definition ex3 : lex := stream
  [set_suf [10] (tk0 T_IDENT);
   set_refs 2 (set_pre [8;9] (set_suf [11] (tk0 T_IDENT)));
   set_pre [12] (tk0 T_SEMI);
   set_refs 2 (set_flags F_BRANCH (set_pre [6] (tk0 T_INT))); tk0 T_EOF; tk0 T_NONE;
   set_pv (Some 8) (set_nx (Some 7) (set_parent (Some 3) (tk0 T_CPP_ELSE)));
   tk0 T_CPP; set_nx (Some 6) (set_parent (Some 1) (tk0 T_CPP_IF)); tk0 T_COMMENT; tk0 T_SPACE; tk0 T_SPACE; tk0 T_COMMENT] [0;1;2;3;4].
Example ex3_wfl : wfl (fun _ => 0) ex3.
Proof.
  constructor.
  - vm_compute. repeat constructor; simpl; intuition lia.
  - exists [0;1;2;3], 4. split; [reflexivity|]. split; [reflexivity|]. repeat constructor; vm_compute; discriminate.
  - intros t d Ht Hd. change (x_toks ex3) with [0;1;2;3;4] in Ht. destruct Ht as [<-|[<-|[<-|[<-|[<-|[]]]]]]; simpl in Hd;
      intuition (subst; try reflexivity; discriminate).
  - intros t Ht. change (x_toks ex3) with [0;1;2;3;4] in Ht. destruct Ht as [<-|[<-|[<-|[<-|[<-|[]]]]]]; reflexivity.
Qed.
Example C13_ex : match remove 1 ex3 with
  | Some y => x_toks y = [0;2;3;4] /\ n_pre (x_heap y 2) = [8;9;12] /\ n_suf (x_heap y 0) = [10;11] /\
              n_parent (x_heap y 8) = Some 2 /\ n_refs (x_heap y 2) = 2 /\ n_live (x_heap y 1) = false
  | None => False end.
Proof. vm_compute. auto 10. Qed.

(** ** C14 *)
Theorem C14_insert_after : forall after def x p q, NoDup (x_toks x) -> x_toks x = p ++ after :: q -> (forall t, In t (x_toks x) -> t < x_next x) ->
  exists t y, insert_after after def x = Some (t, y) /\ x_toks y = p ++ after :: t :: q /\ ~ In t (x_toks x) /\
    (forall i, i <> t -> x_heap y i = x_heap x i) /\
    n_type (x_heap y t) = n_type def /\ n_str (x_heap y t) = n_str def /\ n_pre (x_heap y t) = [] /\ n_suf (x_heap y t) = [] /\
    n_lno (x_heap y t) = n_lno (x_heap x after) /\ x_cur y = x_cur x.
Proof.
  intros after def x p q Hd Et Hf. destruct (insert_after_spec after def x p q Hd Et Hf) as (y & A & B & C & D & F & G & H & I & J & K & L & M & N & _).
  exists (x_next x), y. repeat (split; auto). intros Q. apply Hf in Q. lia.
Qed.

Theorem C14_copy_after : forall after src x p q, NoDup (x_toks x) -> x_toks x = p ++ after :: q ->
  (forall t, In t (x_toks x) -> t < x_next x) -> src < x_next x -> (forall t, In t (n_pre (x_heap x src) ++ n_suf (x_heap x src)) -> t < x_next x) ->
  exists y t, copy_after after src x = Some (t, y) /\ x_toks y = p ++ after :: t :: q /\ t >= x_next x /\
    (forall i, i < x_next x -> x_heap y i = x_heap x i) /\
    text_of (x_heap y) t = text_of (x_heap x) src /\
    map (text_of (x_heap y)) (n_pre (x_heap y t)) = map (text_of (x_heap x)) (n_pre (x_heap x src)) /\
    map (text_of (x_heap y)) (n_suf (x_heap y t)) = map (text_of (x_heap x)) (n_suf (x_heap x src)) /\
    (forall i, In i (n_pre (x_heap y t) ++ n_suf (x_heap y t)) -> x_next x <= i < x_next y) /\
    NoDup (t :: n_pre (x_heap y t) ++ n_suf (x_heap y t)) /\ n_lno (x_heap y t) = n_lno (x_heap x after).
Proof. exact copy_after_spec. Qed.

(** [a ++ b] is the list without the moved token. *)
Theorem C14_move_after : forall after tk x a b p q, NoDup (x_toks x) -> x_toks x = a ++ tk :: b -> a ++ b = p ++ after :: q ->
  exists y, move_after after tk x = Some y /\ x_toks y = p ++ after :: tk :: q /\ Permutation (x_toks y) (x_toks x) /\
    (forall i, n_pre (x_heap y i) = n_pre (x_heap x i) /\ n_suf (x_heap y i) = n_suf (x_heap x i) /\ text_of (x_heap y) i = text_of (x_heap x) i) /\
    (forall i, i <> tk -> ~ In i (n_suf (x_heap x tk)) -> x_heap y i = x_heap x i) /\
    n_lno (x_heap y tk) = n_lno (x_heap x after) /\ x_cur y = x_cur x.
Proof.
  intros after tk x a b p q Hd Et Ea. assert (Hd' := Hd). rewrite Et in Hd'. destruct (nodup_split _ _ _ Hd') as (N1 & N2).
  destruct (move_after_spec after tk x p q) as (y & A & B & C & D & F & G & _); auto.
  - rewrite Et, del_split; auto.
  - rewrite Et. apply in_or_app. right; left; auto.
  - intros ->. assert (K : In tk (a ++ b)) by (rewrite Ea; apply in_or_app; right; left; auto). apply in_app_or in K. tauto.
  - exists y. split; auto. split; auto. split.
    { rewrite B, Et. transitivity (tk :: p ++ after :: q); [permc|]. rewrite <- Ea. permc. }
    split; auto. intros i. specialize (C i). unfold repositioned in C. unfold text_of. rewrite C. auto.
Qed.

(** A list is made of two, each in order. *)
Inductive Interleave {A} : list A -> list A -> list A -> Prop :=
| il_nil : Interleave [] [] []
| il_left : forall x a b l, Interleave a b l -> Interleave (x :: a) b (x :: l)
| il_right : forall x a b l, Interleave a b l -> Interleave a (x :: b) (x :: l).
(** The token moved is the first one on its line. *)
Definition begins_line (x : lex) (a : list id) (mv : id) : Prop := a = [] \/ exists a' pv, a = a' ++ [pv] /\ n_lno (x_heap x pv) <> n_lno (x_heap x mv).
Definition suffix_flag (x : lex) (f : N) (t : id) : Prop := N.land (n_flags (x_heap x t)) f <> 0%N.
(** The suffixes change places, so that what separates the tokens stays where it was: of [mv]
    stay the optional spaces if it begins a line, and of [before] stays what comes from the
    first optional line on. *)
Definition swapped (x y : lex) (a : list id) (before mv : id) : Prop :=
  exists l k stay go, n_suf (x_heap x before) = l ++ k /\ Forall (fun t => ~ suffix_flag x F_OPTLINE t) l /\ (match k with [] => True | t :: _ => suffix_flag x F_OPTLINE t end) /\
    n_suf (x_heap y mv) = stay ++ l /\ n_suf (x_heap y before) = go ++ k /\ Interleave stay go (n_suf (x_heap x mv)) /\
    Forall (fun t => begins_line x a mv /\ suffix_flag x F_OPTSPACE t) stay /\ Forall (fun t => ~ (begins_line x a mv /\ suffix_flag x F_OPTSPACE t)) go.
Theorem C14_move_before : forall E before mv x a b p q, wfl E x -> x_toks x = a ++ mv :: b -> a ++ b = p ++ before :: q ->
  exists y, move_before before mv x = Some y /\ x_toks y = p ++ mv :: before :: q /\ Permutation (x_toks y) (x_toks x) /\
    n_pre (x_heap y mv) = n_pre (x_heap x before) ++ n_pre (x_heap x mv) /\ n_pre (x_heap y before) = [] /\
    Permutation (n_suf (x_heap y before) ++ n_suf (x_heap y mv)) (n_suf (x_heap x before) ++ n_suf (x_heap x mv)) /\
    (forall t, t <> before -> t <> mv -> n_pre (x_heap y t) = n_pre (x_heap x t) /\ n_suf (x_heap y t) = n_suf (x_heap x t)) /\
    (forall i, n_type (x_heap y i) = n_type (x_heap x i) /\ n_str (x_heap y i) = n_str (x_heap x i)) /\
    n_lno (x_heap y mv) = n_lno (x_heap x before) /\
    (forall d, n_parent (x_heap y d) = if existsb (Nat.eqb d) (n_pre (x_heap x before)) && isdird (x_heap x) d then Some mv else n_parent (x_heap x d)) /\
    x_cur y = x_cur x /\ swapped x y a before mv.
Proof.
  intros E before mv x a b p q W Et Ea. assert (Hd' := whole_toks _ _ (wl_nodup _ _ W)). rewrite Et in Hd'. destruct (nodup_split _ _ _ Hd') as (N1 & N2).
  destruct (move_before_spec E before mv x p q W) as (y & A & B & C).
  - rewrite Et, del_split; auto.
  - rewrite Et. apply in_or_app. right; left; auto.
  - intros ->. assert (K : In mv (a ++ b)) by (rewrite Ea; apply in_or_app; right; left; auto). apply in_app_or in K. tauto.
  - exists y. split; [exact A|]. split; [exact B|]. split; [rewrite B, Et; transitivity (mv :: p ++ before :: q); [permc|]; rewrite <- Ea; permc|].
    destruct C as (C1 & C2 & C3 & C4 & C5 & C6 & C7 & C8 & C9 & C10).
    refine (conj C1 (conj C2 (conj C3 (conj C4 (conj C5 (conj C6 (conj C7 (conj C8 _)))))))).
    assert (FI : is_first (x_toks x) (x_heap x) mv = true <-> begins_line x a mv).
    { unfold is_first, begins_line. rewrite Et. unfold prev_of. rewrite prev_from_split by auto. destruct a as [|a0 a1] eqn:EA; [cbn; intuition|]. rewrite <- EA in *. destruct (@exists_last _ a ltac:(rewrite EA; discriminate)) as (a' & pv & ->). rewrite rev_app_distr. cbn [rev app].
      split.
      - intros H. right. exists a', pv. split; [reflexivity|]. apply negb_true_iff, Nat.eqb_neq in H. exact H.
      - intros [H|(a2 & pv2 & H1 & H2)]; [destruct a'; discriminate|]. apply app_inj_tail in H1. destruct H1 as [_ <-]. apply negb_true_iff, Nat.eqb_neq. exact H2. }
    assert (KF : forall f t, kept f (x_heap x) t = true <-> suffix_flag x f t).
    { intros f t. unfold kept, suffix_flag. rewrite negb_true_iff, N.eqb_neq. reflexivity. }
    set (fl := if is_first _ _ _ then _ else _) in *.
    assert (KS : forall t, kept fl (x_heap x) t = true <-> begins_line x a mv /\ suffix_flag x F_OPTSPACE t).
    { intros t. unfold fl. destruct (is_first (x_toks x) (x_heap x) mv) eqn:I.
      - rewrite KF. intuition.
      - rewrite <- FI. unfold kept. rewrite N.land_0_r. cbn. intuition discriminate. }
    exists (leading (kept F_OPTLINE (x_heap x)) (n_suf (x_heap x before))), (trailing (kept F_OPTLINE (x_heap x)) (n_suf (x_heap x before))),
      (filter (kept fl (x_heap x)) (n_suf (x_heap x mv))), (filter (fun t => negb (kept fl (x_heap x) t)) (n_suf (x_heap x mv))).
    split; [symmetry; apply leading_trailing|]. split.
    { clear - KF. induction (n_suf (x_heap x before)) as [|t l IH]; cbn [leading]; [constructor|]. destruct (kept F_OPTLINE (x_heap x) t) eqn:K; [constructor|]. constructor; [rewrite <- KF, K; discriminate|exact IH]. }
    split.
    { clear - KF. induction (n_suf (x_heap x before)) as [|t l IH]; cbn [trailing]; [exact I|]. destruct (kept F_OPTLINE (x_heap x) t) eqn:K; [apply KF; exact K|exact IH]. }
    split; [exact C10|]. split; [exact C9|]. split.
    { clear. induction (n_suf (x_heap x mv)) as [|t l IH]; cbn [filter]; [constructor|]. destruct (kept fl (x_heap x) t); cbn [negb]; constructor; exact IH. }
    split; rewrite Forall_forall; intros t Ht; apply filter_In in Ht; destruct Ht as [_ Ht].
    + apply KS. exact Ht.
    + rewrite <- KS. apply negb_true_iff in Ht. rewrite Ht. discriminate.
Qed.

Example C14_ex :
  match insert_after 1 (tk0 T_SEMI) ex3, copy_after 2 1 ex3, move_after 3 0 ex3, move_before 0 1 ex3 with
  | Some (t, y), Some (u, z), Some v, Some w =>
      x_toks y = [0;1;13;2;3;4] /\ t = 13 /\ x_toks z = [0;1;2;13;3;4] /\ n_pre (x_heap z u) = [14;15] /\
      x_toks v = [1;2;3;0;4] /\ x_toks w = [1;0;2;3;4] /\ n_suf (x_heap w 0) = [11] /\ n_suf (x_heap w 1) = [10]
  | _, _, _, _ => False end.
Proof. vm_compute. auto 10. Qed.

(** ** C15 *)
Theorem C15_swap : forall ks kd src dst, NoDup (src ++ dst) ->
  exists src' dst', swap_lists ks kd src dst = Some (src', dst') /\
    Permutation (src' ++ dst') (src ++ dst) /\
    (forall t, In t dst -> kd t = false -> In t src') /\ (forall t, In t dst -> kd t = true -> In t dst') /\
    (forall t, In t src -> ks t = true -> In t src').
Proof.
  intros ks kd src dst Hd. rewrite swap_lists_spec by auto. eexists. eexists. split; [reflexivity|].
  split.
  { assert (P : forall (f : id -> bool) l, Permutation (filter (fun t => negb (f t)) l ++ filter f l) l).
    { intros f. induction l as [|z l IH]; cbn [filter app]; auto. destruct (f z); cbn [negb app].
      - symmetry. etransitivity; [|apply Permutation_middle]. apply perm_skip. symmetry. auto.
      - apply perm_skip. auto. }
    rewrite <- (P kd dst) at 3. rewrite <- (leading_trailing ks src) at 3. permc. }
  split; [intros t A B; apply in_or_app; left; apply filter_In; rewrite B; auto|].
  split; [intros t A B; apply in_or_app; left; apply filter_In; auto|].
  intros t A B. apply in_or_app. right. clear -A B. induction src as [|u src IH]; [destruct A|]. cbn. destruct (ks u) eqn:E; auto.
  destruct A as [->|A]; [congruence|auto].
Qed.

(** With the kept tokens of the first list at its end (where OPTLINE newlines are) the lists
    are exchanged, the order within the lists included. *)
Theorem C15_swap_partial : forall ks kd a k dst, NoDup ((a ++ k) ++ dst) ->
  Forall (fun t => ks t = false) a -> Forall (fun t => ks t = true) k ->
  swap_lists ks kd (a ++ k) dst = Some (filter (fun t => negb (kd t)) dst ++ k, filter kd dst ++ a).
Proof.
  intros ks kd a k dst Hd Ha Hk. rewrite swap_lists_spec by auto.
  assert (E : leading ks (a ++ k) = a /\ trailing ks (a ++ k) = k).
  { clear Hd. induction Ha as [|t a Ht Ha (I1 & I2)]; cbn [app leading trailing].
    - destruct Hk as [|t k Ht]; auto. cbn. rewrite Ht. auto.
    - rewrite Ht, I1, I2. auto. }
  destruct E as (-> & ->). auto.
Qed.

(** Tokens behind a kept one are not exchanged. *)
Theorem C15_swap_refuted : exists ks kd src dst src' dst' t, NoDup (src ++ dst) /\
  swap_lists ks kd src dst = Some (src', dst') /\ In t src /\ ks t = false /\ ~ In t dst'.
Proof.
  exists (Nat.eqb 1), (fun _ => false), [0;1;2], [3;4], [3;4;1;2], [0], 2. split; [repeat constructor; simpl; intuition lia|].
  split; [reflexivity|]. split; [simpl; auto|]. split; auto. simpl. intuition lia.
Qed.

Example C15_ex : swap_lists (Nat.eqb 2) (Nat.eqb 4) [0;1;2] [3;4;5] = Some ([3;5;2], [4;0;1]).
Proof. reflexivity. Qed.

Print Assumptions C13_remove.
Print Assumptions C13_order.
Print Assumptions C13_eof.
Print Assumptions C14_insert_after.
Print Assumptions C14_copy_after.
Print Assumptions C14_move_after.
Print Assumptions C14_move_before.
Print Assumptions C15_swap.
Print Assumptions C15_swap_partial.
