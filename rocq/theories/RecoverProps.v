(** C67: taking the next branch of a conditional, and recovering from a syntax error by turning
    a branch into a directive that is kept as it is. *)
From Coq Require Import Permutation Sorted String.
From Verif Require Import Base TokenModel StreamModel StreamProofs TokListModel TokListProofs BranchModel BranchProofs LifeProofs StreamProps RecoverModel RecoverProofs RecoverSteps.
Local Open Scope list_scope.

(** ** Histories: what C56 has, taking branches and recovering *)
Inductive action : Set := Plain (o : op) | Branch | Recover.
Record state := State { s_lex : lex; s_stamps : list id; s_off : id -> nat }.
Definition allowed (q : state) (o : action) : Prop := match o with Plain o => op_ok (s_lex q) o | _ => True end.
Definition act (buf : bytes) (o : action) (q : state) : option state :=
  match o with
  | Plain o => do (x, s) <- exec o (s_lex q) (s_stamps q); Some (State x s (s_off q))
  | Branch => do (_, _, x) <- take_branch (s_lex q) (s_stamps q); Some (State x (s_stamps q) (s_off q))
  | Recover => do (_, _, x, off) <- recover buf (s_off q) (s_lex q) (s_stamps q); Some (State x (s_stamps q) off)
  end.
Inductive history (buf : bytes) (q : state) : state -> Prop :=
| hi_start : history buf q q
| hi_step : forall r o r', history buf q r -> allowed r o -> act buf o r = Some r' -> history buf q r'.
(** Reading a file that is in order, and any history behind it. *)
Definition reached (buf : bytes) (q : state) : Prop :=
  exists x0 x off, fresh x0 /\ cur_ok x0 /\ tokenize_branches x0 = Some x /\ history buf (State x [] off) q.

Lemma act_good : forall buf o q, good (s_lex q) (s_stamps q) -> allowed q o -> exists r, act buf o q = Some r /\ good (s_lex r) (s_stamps r).
Proof.
  intros buf o [x s off] G Ho. cbn [s_lex s_stamps s_off allowed] in *. destruct o as [o| |]; cbn [act s_lex s_stamps s_off].
  - destruct (exec_good o x s G Ho) as (y & s' & -> & G'). eexists. split; [reflexivity|exact G'].
  - destruct G as ((cs & L) & O & B & C). destruct (branch_full x s cs L O B C) as [[-> _]|H].
    + eexists. split; [reflexivity|]. split; [eauto|]. split; [exact O|]. split; [exact B|exact C].
    + destruct H as (br & nx & src & dst & A & M & D & ok & y & c & cs' & _ & _ & _ & _ & -> & L' & O' & B' & C' & _). eexists. split; [reflexivity|]. cbn [s_lex s_stamps].
      split; [exists cs'; apply set_cur_life; exact L'|]. split; [exact O'|]. split; [exact B'|exact C'].
  - destruct G as ((cs & L) & O & B & C). destruct (recover_full x s cs buf off L O B C) as [->|H].
    + eexists. split; [reflexivity|]. split; [eauto|]. split; [exact O|]. split; [exact B|exact C].
    + destruct H as (br & nx & src & dst & y & off' & ok & c & T & F & C' & -> & _). eexists. split; [reflexivity|]. cbn [s_lex s_stamps].
      destruct (fold_full x s cs buf off br nx src dst L O B C T) as (? & ? & ? & ? & ? & ? & ? & y' & cs' & _ & _ & _ & F' & L' & O' & B' & _). rewrite F in F'. injection F' as <- _.
      split; [exists cs'; apply set_cur_life; exact L'|]. split; [exact O'|]. split; [exact B'|exact C'].
Qed.
Lemma reached_good : forall buf q, reached buf q -> good (s_lex q) (s_stamps q).
Proof.
  intros buf q (x0 & x & off & F & C & E & H). destruct (start_full x0 F C) as (x' & cs & E' & L & O & B & C'). assert (x' = x) by congruence. subst x'.
  induction H as [|r o r' H IH Ho A].
  - split; [eauto|]. split; [exact O|]. split; [exact B|exact C'].
  - destruct (act_good buf o r IH Ho) as (r2 & A2 & G). congruence.
Qed.

(** Nothing fails, whatever happened before. *)
Theorem C67_progress : forall buf q o, reached buf q -> allowed q o -> act buf o q <> None.
Proof. intros buf q o R A. destruct (act_good buf o q (reached_good buf q R) A) as (r & -> & _). discriminate. Qed.

(** At shutdown the assertion of lexer_free holds and nothing is left. *)
Theorem C67_balanced : forall buf q, reached buf q ->
  exists f g, before_free (s_lex q) (s_stamps q) = Some f /\ (forall t, In t (x_toks (s_lex q)) -> n_refs (f t) = 1) /\
    lexer_free (s_lex q) (s_stamps q) = Some g /\ (forall i, In i (whole (x_heap (s_lex q)) (x_toks (s_lex q))) \/ In i (s_stamps q) -> n_refs (g i) = 0 /\ n_live (g i) = false).
Proof.
  intros buf q R. destruct (reached_good buf q R) as ((cs & L) & _). destruct (free_spec _ _ cs L) as (g & G1 & G2 & f & F1 & F2). eauto 10.
Qed.

(** ** Taking a branch *)
(** [d], in front of [t], is an #else or #elif, and the directive before it is in front of
    another token. *)
Definition switches (x : lex) (t br d : id) : Prop :=
  In d (n_pre (x_heap x t)) /\ norm (x_heap x) d = T_CPP_ELSE /\ n_pv (x_heap x d) = Some br /\ n_parent (x_heap x br) <> Some t.

Lemma parent_in : forall x s cs t d, life x s cs -> In t (x_toks x) -> In d (n_pre (x_heap x t)) -> isdird (x_heap x) d = true -> n_parent (x_heap x d) = Some t.
Proof. intros x s cs t d L Ht Hd D. apply (wl_parent _ _ (li_wfl _ _ _ L)); auto. Qed.
Lemma find1_exact : forall x s cs t l, life x s cs -> In t (x_toks x) -> incl l (n_pre (x_heap x t)) ->
  match branch_find1 (x_heap x) l with
  | None => forall br d, In d l -> ~ switches x t br d
  | Some br => exists P d Q, l = P ++ d :: Q /\ switches x t br d /\ forall br' d', In d' P -> ~ switches x t br' d'
  end.
Proof.
  intros x s cs t l L Ht. induction l as [|p l IH]; intros I; [intros br d []|]. specialize (IH (fun k K => I k (or_intror K))).
  assert (Pp : In p (n_pre (x_heap x t))) by (apply I; left; auto).
  assert (Skip : (forall br, ~ switches x t br p) -> match branch_find1 (x_heap x) l with
    | None => forall br d, In d (p :: l) -> ~ switches x t br d
    | Some br => exists P d Q, p :: l = P ++ d :: Q /\ switches x t br d /\ forall br' d', In d' P -> ~ switches x t br' d' end).
  { intros Np. destruct (branch_find1 (x_heap x) l) as [br|].
    - destruct IH as (P & d & Q & -> & Sd & Hp). exists (p :: P), d, Q. split; [reflexivity|]. split; [exact Sd|]. intros br' d' [<-|K]; [apply Np|apply Hp; exact K].
    - intros br d [<-|K]; [apply Np|apply IH; exact K]. }
  cbn [branch_find1]. destruct (ttype_eqb (type_normalize (n_type (x_heap x p))) T_CPP_ELSE) eqn:Ty; cbn [negb].
  - apply ttype_eqb_eq in Ty. assert (Dp : isdird (x_heap x) p = true) by (apply norm_isdir; auto). assert (Ip : In p (pres x)) by (apply pres_in; eauto).
    destruct (chain_prev _ _ _ p (li_chain _ _ _ L)) as (q & Pq & Iq & Nq & Tq); [apply (in_chain _ _ _ _ L); auto|auto|]. rewrite Pq.
    apply (in_chain _ _ _ _ L) in Iq. destruct Iq as (Iq & Dq). destruct (dir_parent _ _ _ _ L Iq Dq) as (u & T1 & T2 & T3).
    rewrite (parent_in x s cs t p L Ht Pp Dp), T1. destruct (Nat.eqb_spec t u) as [->|N].
    + apply Skip. intros br (_ & _ & S3 & S4). assert (br = q) by congruence. subst br. congruence.
    + exists [], p, l. split; [reflexivity|]. split; [|intros br' d' []]. split; [exact Pp|]. split; [exact Ty|]. split; [exact Pq|]. congruence.
  - apply Skip. intros br (_ & S2 & _). unfold norm in S2. rewrite S2 in Ty. discriminate.
Qed.

(** The last stamp that is still there. *)
Definition standing (y : lex) (s : list id) (m : option id) : Prop :=
  (exists s1 u s2, s = s1 ++ u :: s2 /\ Forall (fun v => ~ In v (x_toks y)) s1 /\ In u (x_toks y) /\ m = Some u) \/
  (Forall (fun v => ~ In v (x_toks y)) s /\ m = None).
Lemma dangling_in : forall x t, is_dangling x t = false <-> In t (x_toks x).
Proof.
  intros x t. unfold is_dangling. rewrite negb_false_iff, existsb_exists. split.
  - intros (k & K1 & K2). apply Nat.eqb_eq in K2. subst. exact K1.
  - intros I. exists t. split; [exact I|apply Nat.eqb_refl].
Qed.
Lemma dangling_out : forall x t, is_dangling x t = true <-> ~ In t (x_toks x).
Proof. intros x t. rewrite <- dangling_in. destruct (is_dangling x t); intuition congruence. Qed.
Lemma last_standing : forall y s, standing y s (last_stamped y s).
Proof.
  intros y s. unfold standing, last_stamped. induction s as [|t s IH]; [right; auto|]. cbn [find]. destruct (is_dangling y t) eqn:D; cbn [negb].
  - apply dangling_out in D. destruct IH as [(s1 & u & s2 & -> & F & I & E)|(F & E)].
    + left. exists (t :: s1), u, s2. auto.
    + right. auto.
  - apply dangling_in in D. left. exists [], t, s. auto.
Qed.
Lemma standing_one : forall y s m m', standing y s m -> standing y s m' -> m = m'.
Proof.
  intros y s m m' [(s1 & u & s2 & -> & F & I & ->)|(F & ->)] [(s3 & v & s4 & E & G & J & ->)|(G & ->)]; auto.
  - f_equal. revert s3 E G. induction s1 as [|w s1 IH]; intros [|z s3] E G; cbn in E; injection E as E1 E2; subst; auto.
    + inversion G. contradiction.
    + inversion F. contradiction.
    + inversion F. inversion G. eapply IH; eauto.
  - exfalso. rewrite Forall_forall in G. apply (G u); [apply in_or_app; right; left; reflexivity|exact I].
  - exfalso. subst. rewrite Forall_forall in F. apply (F v); [apply in_or_app; right; left; reflexivity|exact J].
Qed.

(** The tokens between an #if or #elif and the #else at the cursor are removed; what is in front
    of and behind them stays as it is. *)
Theorem C67_branch : forall buf q, reached buf q -> let x := s_lex q in let s := s_stamps q in
  (take_branch x s = Some (false, None, x) /\ forall t br d, x_cur x = Some t -> ~ switches x t br d) \/
  exists t P d Q br src A M C ok y, x_cur x = Some t /\ n_pre (x_heap x t) = P ++ d :: Q /\ switches x t br d /\ (forall br' d', In d' P -> ~ switches x t br' d') /\
    n_parent (x_heap x br) = Some src /\ In br (n_pre (x_heap x src)) /\ x_toks x = A ++ src :: M ++ t :: C /\
    take_branch x s = Some (ok, Some t, y) /\ x_toks y = A ++ t :: C /\
    (forall u, In u (A ++ t :: C) -> n_pre (x_heap y u) = n_pre (x_heap x u) /\ n_suf (x_heap y u) = n_suf (x_heap x u)) /\
    (forall i, same_text (x_heap x) (x_heap y) i) /\ (ok = true -> standing y s (x_cur y)).
Proof.
  intros buf q R x s. destruct (reached_good buf q R) as ((cs & L) & O & B & C). fold x s in L, O, B, C.
  destruct (branch_full x s cs L O B C) as [(E & H)|H].
  - left. split; [exact E|]. intros t br d Ec Sw. specialize (H t Ec). pose proof (find1_exact x s cs t (n_pre (x_heap x t)) L (C t Ec) (incl_refl _)) as X. unfold branch_find in H. rewrite H in X.
    destruct Sw as (S1 & S2). exact (X br d S1 (conj S1 S2)).
  - right. destruct H as (br & nx & src & dst & A & M & D & ok & y & c & cs' & H1 & H2 & T & H4 & H5 & L' & O' & B' & C' & H6 & H7 & H8 & H9 & H10).
    pose proof (find1_exact x s cs dst (n_pre (x_heap x dst)) L (C dst H1) (incl_refl _)) as X. unfold branch_find in H2. rewrite H2 in X. destruct X as (P & d & Q & X1 & X2 & X3).
    destruct (dir_parent _ _ _ _ L (ta_in _ _ _ _ _ T) (ta_dir _ _ _ _ _ T)) as (src' & T1 & T2 & T3). assert (src' = src) by (pose proof (ta_src _ _ _ _ _ T); congruence). subst src'.
    exists dst, P, d, Q, br, src, A, M, D, ok, (set_cur c y). split; [exact H1|]. split; [exact X1|]. split; [exact X2|]. split; [exact X3|]. split; [exact T1|]. split; [exact T3|]. split; [exact H4|].
    split; [exact H5|]. split; [exact H6|]. split; [exact H8|]. split; [intros i; apply soft_text; apply H7|]. intros ->. rewrite H10. apply (last_standing y s).
Qed.

(** ** Finding the branch to fold *)
(** The branch a directive opens or closes. *)
Definition branch_of (x : lex) (d br : id) : Prop :=
  ((norm (x_heap x) d = T_CPP_IF \/ norm (x_heap x) d = T_CPP_ELSE) /\ br = d) \/ (norm (x_heap x) d = T_CPP_ENDIF /\ n_pv (x_heap x d) = Some br).
(** There are tokens in the branch. *)
Definition filled (x : lex) (br : id) : Prop := exists nx, n_nx (x_heap x br) = Some nx /\ n_parent (x_heap x br) <> n_parent (x_heap x nx).
Definition quiet (x : lex) (l : list id) : Prop := forall d br, In d l -> branch_of x d br -> ~ filled x br.
(** The last directive in front of a token with a branch that has tokens. *)
Definition offers (x : lex) (t br : id) : Prop :=
  exists P d Q, n_pre (x_heap x t) = P ++ d :: Q /\ branch_of x d br /\ filled x br /\ quiet x Q.
(** Tokens up to another one. *)
Fixpoint upto (m : option id) (l : list id) : list id :=
  match l with [] => [] | t :: l => if ideqb (Some t) m then [] else t :: upto m l end.

Lemma prefix_exact : forall x s cs t l, life x s cs -> In t (x_toks x) -> incl l (n_pre (x_heap x t)) ->
  match find_prefix (x_heap x) l with
  | None => False
  | Some None => quiet x l
  | Some (Some br) => exists P d Q, l = P ++ d :: Q /\ branch_of x d br /\ filled x br /\ quiet x P
  end.
Proof.
  intros x s cs t l L Ht. induction l as [|p l IH]; intros I; [intros d br []|]. specialize (IH (fun k K => I k (or_intror K))).
  assert (Pp : In p (n_pre (x_heap x t))) by (apply I; left; auto). assert (Ip : In p (pres x)) by (apply pres_in; eauto).
  assert (Skip : (forall br, branch_of x p br -> ~ filled x br) -> match find_prefix (x_heap x) l with
    | None => False
    | Some None => quiet x (p :: l)
    | Some (Some br) => exists P d Q, p :: l = P ++ d :: Q /\ branch_of x d br /\ filled x br /\ quiet x P end).
  { intros Np. destruct (find_prefix (x_heap x) l) as [[br|]|].
    - destruct IH as (P & d & Q & -> & B1 & B2 & B3). exists (p :: P), d, Q. split; [reflexivity|]. split; [exact B1|]. split; [exact B2|]. intros d' b [<-|K]; [apply Np|apply B3; exact K].
    - intros d b [<-|K]; [apply Np|apply IH; exact K].
    - exact IH. }
  assert (Y : forall br, branch_of x p br -> (forall b, branch_of x p b -> b = br) -> In br (pres x) -> isdird (x_heap x) br = true -> norm (x_heap x) br = T_CPP_IF \/ norm (x_heap x) br = T_CPP_ELSE ->
    match (do nx <- n_nx (x_heap x br); if ideqb (n_parent (x_heap x br)) (n_parent (x_heap x nx)) then find_prefix (x_heap x) l else Some (Some br)) with
    | None => False
    | Some None => quiet x (p :: l)
    | Some (Some br) => exists P d Q, p :: l = P ++ d :: Q /\ branch_of x d br /\ filled x br /\ quiet x P end).
  { intros br Bo Bu B1 B2 B3. destruct (chain_next _ _ _ br (li_chain _ _ _ L)) as (q & Nq & Iq & Pq & Tq); [apply (in_chain _ _ _ _ L); auto|auto|]. rewrite Nq.
    apply (in_chain _ _ _ _ L) in Iq. destruct Iq as (Iq & Dq). destruct (dir_parent _ _ _ _ L Iq Dq) as (v & T1 & T2 & T3). destruct (dir_parent _ _ _ _ L B1 B2) as (u & U1 & U2 & U3).
    rewrite T1, U1. cbn [ideqb]. destruct (Nat.eqb_spec u v) as [->|N].
    - apply Skip. intros b Hb (nx & F1 & F2). rewrite (Bu b Hb) in *. assert (nx = q) by congruence. subst nx. congruence.
    - exists [], p, l. split; [reflexivity|]. split; [exact Bo|]. split; [exists q; split; [exact Nq|congruence]|]. intros d b []. }
  cbn [find_prefix]. destruct (norm (x_heap x) p) eqn:Ty;
    try (apply Skip; intros b [([K|K] & _)|(K & _)]; congruence).
  - apply Y; auto; [left; auto|intros b [(_ & ->)|(K & _)]; [reflexivity|congruence]|apply norm_isdir; auto].
  - apply Y; auto; [left; auto|intros b [(_ & ->)|(K & _)]; [reflexivity|congruence]|apply norm_isdir; auto].
  - assert (Dp : isdird (x_heap x) p = true) by (apply norm_isdir; auto). destruct (chain_prev _ _ _ p (li_chain _ _ _ L)) as (q & Pq & Iq & Nq & Tq); [apply (in_chain _ _ _ _ L); auto|auto|]. rewrite Pq.
    apply (in_chain _ _ _ _ L) in Iq. destruct Iq as (Iq & Dq). apply Y; auto; [right; auto|]. intros b [([K|K] & _)|(_ & K)]; congruence.
Qed.
Lemma quiet_rev : forall x l, quiet x l -> quiet x (rev l).
Proof. intros x l H d br I. apply H. apply in_rev. exact I. Qed.
Lemma branch_exact : forall x s cs (fwd : bool) th a tk b fuel, life x s cs -> x_toks x = a ++ tk :: b -> fuel > length (if fwd then b else a) ->
  match find_branch fuel tk th fwd x with
  | None => False
  | Some None => Forall (fun t => quiet x (n_pre (x_heap x t))) (tk :: upto th (if fwd then b else rev a))
  | Some (Some br) => exists l1 t l2, tk :: upto th (if fwd then b else rev a) = l1 ++ t :: l2 /\ Forall (fun t => quiet x (n_pre (x_heap x t))) l1 /\ offers x t br
  end.
Proof.
  intros x s cs fwd th a tk b fuel. revert a tk b. induction fuel as [|fuel IH]; intros a tk b L Et Hf; [lia|]. cbn [find_branch].
  assert (Ht : In tk (x_toks x)) by (rewrite Et; apply in_or_app; right; left; auto).
  pose proof (prefix_exact x s cs tk (rev (n_pre (x_heap x tk))) L Ht (fun k K => proj2 (in_rev _ _) K)) as X. destruct (find_prefix (x_heap x) (rev (n_pre (x_heap x tk)))) as [[br|]|]; [| |contradiction].
  { destruct X as (P & d & Q & E & X1 & X2 & X3). exists [], tk, (upto th (if fwd then b else rev a)). split; [reflexivity|]. split; [constructor|].
    exists (rev Q), d, (rev P). split; [|split; [exact X1|split; [exact X2|apply quiet_rev; exact X3]]]. rewrite <- (rev_involutive (n_pre (x_heap x tk))), E, rev_app_distr. cbn [rev]. rewrite <- app_assoc. reflexivity. }
  apply quiet_rev in X. rewrite rev_involutive in X.
  assert (Nt := whole_toks _ _ (wl_nodup _ _ (li_wfl _ _ _ L))). rewrite Et in Nt. destruct (nodup_split _ _ _ Nt) as (N1 & N2). rewrite Et.
  assert (Go : forall (r : option (option id)) (l : list id), match r with
      | None => False
      | Some None => Forall (fun t => quiet x (n_pre (x_heap x t))) l
      | Some (Some br) => exists l1 t l2, l = l1 ++ t :: l2 /\ Forall (fun t => quiet x (n_pre (x_heap x t))) l1 /\ offers x t br end ->
    match r with
      | None => False
      | Some None => Forall (fun t => quiet x (n_pre (x_heap x t))) (tk :: l)
      | Some (Some br) => exists l1 t l2, tk :: l = l1 ++ t :: l2 /\ Forall (fun t => quiet x (n_pre (x_heap x t))) l1 /\ offers x t br end).
  { intros [[br|]|] l H; [|constructor; auto|exact H]. destruct H as (l1 & t & l2 & -> & H1 & H2). exists (tk :: l1), t, l2. split; [reflexivity|]. split; [constructor; auto|exact H2]. }
  destruct fwd.
  - rewrite next_split by auto. destruct b as [|t b]; cbn [hd_error]; [constructor; [exact X|constructor]|]. cbn [upto]. destruct (ideqb (Some t) th); [constructor; [exact X|constructor]|].
    apply Go. apply (IH (a ++ [tk]) t b); auto; [rewrite <- app_assoc; auto|cbn in Hf; lia].
  - rewrite prev_split by auto. destruct a as [|t a _] using rev_ind; cbn [rev hd_error]; [constructor; [exact X|constructor]|]. rewrite rev_app_distr. cbn [rev app hd_error upto].
    destruct (ideqb (Some t) th); [constructor; [exact X|constructor]|]. apply Go. apply (IH a t (tk :: b)); auto; [rewrite <- app_assoc in Et; auto|rewrite app_length in Hf; cbn in Hf; lia].
Qed.

(** ** Folding *)
(** Everything from one directive to the next one is replaced by a single directive that has the
    part of the input from the start of the one to the end of the other; everything else is as
    before. *)
Record folded (buf : bytes) (off : id -> nat) (x : lex) (br : id) (z : lex) (off' : id -> nat) (U mid V : list id) (nx new : id) : Prop := {
  fo_next : n_nx (x_heap x br) = Some nx;
  fo_before : whole (x_heap x) (x_toks x) = U ++ br :: mid ++ nx :: V;
  fo_after : whole (x_heap z) (x_toks z) = U ++ new :: V;
  fo_new : ~ In new (whole (x_heap x) (x_toks x));
  fo_tokens : exists A src M dst C, x_toks x = A ++ src :: M ++ dst :: C /\ x_toks z = A ++ dst :: C /\ In br (n_pre (x_heap x src)) /\ In nx (n_pre (x_heap x dst)) /\ In new (n_pre (x_heap z dst));
  fo_type : n_type (x_heap z new) = T_CPP;
  fo_text : n_str (x_heap z new) = piece buf (off br) (off nx + List.length (n_str (x_heap x nx)) - off br);
  fo_line : n_lno (x_heap z new) = n_lno (x_heap x br);
  fo_off : off' new = off br;
  fo_same : forall i, i <> new -> same_text (x_heap x) (x_heap z) i /\ off' i = off i }.

Lemma whole_app : forall h a b, whole h (a ++ b) = whole h a ++ whole h b.
Proof. intros. apply flat_map_app. Qed.
Lemma whole_same : forall x y l, same_around x y l -> whole (x_heap y) l = whole (x_heap x) l.
Proof. intros x y l H. unfold whole. induction l as [|t l IH]; [reflexivity|]. cbn [flat_map]. destruct (H t (or_introl eq_refl)) as (-> & ->). rewrite IH; [reflexivity|]. intros u I. apply H. right. exact I. Qed.
Lemma fold_folded : forall x s cs buf off br nx src dst, life x s cs -> ordered x -> bounded x s -> cur_ok x -> target x br nx src dst ->
  exists y off' U mid V, branch_fold buf off br x = Some (y, off', dst) /\ folded buf off x br y off' U mid V nx (x_next x).
Proof.
  intros x s cs buf off br nx src dst L O B C T.
  destruct (fold_full x s cs buf off br nx src dst L O B C T) as (A & M & D & P1 & R & Q1 & Q2 & y & cs' & H1 & H2 & H3 & H4 & L' & _ & _ & _ & H5 & H6 & H7 & H8 & H9 & H10 & H11 & H12 & _).
  exists y, (fun i => if i =? x_next x then off br else off i), (whole (x_heap x) A ++ P1), (R ++ src :: n_suf (x_heap x src) ++ whole (x_heap x) M ++ Q1), (Q2 ++ dst :: n_suf (x_heap x dst) ++ whole (x_heap x) D). split; [exact H4|].
  assert (Wx : forall l t r, whole (x_heap x) (l ++ t :: r) = whole (x_heap x) l ++ n_pre (x_heap x t) ++ t :: n_suf (x_heap x t) ++ whole (x_heap x) r).
  { intros. rewrite whole_app. cbn [whole flat_map]. rewrite <- app_assoc. reflexivity. }
  constructor.
  - apply (ta_nx _ _ _ _ _ T).
  - rewrite H1. rewrite Wx, Wx, H2, H3. repeat (rewrite <- app_assoc; cbn [app]). reflexivity.
  - rewrite H5. rewrite whole_app. cbn [whole flat_map]. rewrite H6, H7. change (flat_map _ D) with (whole (x_heap y) D).
    rewrite (whole_same x y A) by (intros t I; apply H8; apply in_or_app; left; exact I). rewrite (whole_same x y D) by (intros t I; apply H8; apply in_or_app; right; exact I).
    repeat (rewrite <- app_assoc; cbn [app]). reflexivity.
  - intros I. pose proof (B _ (or_introl I)). lia.
  - exists A, src, M, dst, D. split; [exact H1|]. split; [exact H5|]. rewrite H2, H3, H6. split; [apply in_or_app; right; left; reflexivity|]. split; apply in_or_app; right; left; reflexivity.
  - exact H10.
  - exact H11.
  - exact H12.
  - rewrite Nat.eqb_refl. reflexivity.
  - intros i N. split; [apply H9; exact N|]. destruct (Nat.eqb_spec i (x_next x)); [contradiction|reflexivity].
Qed.

(** Stamps that are in front of the branch. *)
Definition front (x : lex) (line : nat) (t : id) : Prop := In t (x_toks x) /\ n_lno (x_heap x t) < line.
Lemma front_spec : forall x line t, in_front x line t = true <-> front x line t.
Proof.
  intros x line t. split; [apply in_front_in|]. intros (F1 & F2). unfold in_front. apply andb_true_iff. split; [apply negb_true_iff; apply dangling_in; exact F1|apply Nat.ltb_lt; exact F2].
Qed.
Lemma front_false : forall x line t, in_front x line t = false <-> ~ front x line t.
Proof. intros x line t. rewrite <- front_spec. destruct (in_front x line t); intuition congruence. Qed.
Lemma count_spec : forall x line s, exists s1 s2, s = s1 ++ s2 /\ count_behind x line s = List.length s1 /\ Forall (fun t => ~ front x line t) s1 /\ (forall t, hd_error s2 = Some t -> front x line t).
Proof.
  intros x line s. induction s as [|t s (s1 & s2 & -> & E & F & H)]; [exists [], []; repeat split; auto; discriminate|]. cbn [count_behind]. destruct (in_front x line t) eqn:D.
  - exists [], (t :: s1 ++ s2). split; [reflexivity|]. split; [reflexivity|]. split; [constructor|]. intros u K. injection K as <-. apply front_spec. exact D.
  - exists (t :: s1), s2. rewrite E. split; [reflexivity|]. split; [reflexivity|]. split; [|exact H]. constructor; [apply front_false; exact D|exact F].
Qed.
Lemma find_front : forall x line s,
  (exists s1 u s2, s = s1 ++ u :: s2 /\ Forall (fun t => ~ front x line t) s1 /\ front x line u /\ find (in_front x line) s = Some u) \/
  (Forall (fun t => ~ front x line t) s /\ find (in_front x line) s = None).
Proof.
  intros x line s. induction s as [|t s IH]; [right; auto|]. cbn [find]. destruct (in_front x line t) eqn:D.
  - left. exists [], t, s. apply front_spec in D. auto.
  - apply front_false in D. destruct IH as [(s1 & u & s2 & -> & F & I & E)|(F & E)]; [left; exists (t :: s1), u, s2; auto|right; auto].
Qed.

(** The branch folded is the nearest one with tokens, looking first from the cursor back to the
    last stamp and then ahead; if there is none nothing happens.  The number returned is one more
    than the number of stamps that were not in front of the branch, and the cursor is at the
    last stamp in front of it. *)
Theorem C67_recover : forall buf q a back b m, reached buf q -> let x := s_lex q in let s := s_stamps q in let off := s_off q in
  x_toks x = a ++ back :: b -> (x_cur x = Some back \/ x_cur x = None /\ a = []) -> standing x s m ->
  let back_ := back :: upto m (rev a) in let ahead := back :: upto m b in let none := Forall (fun t => quiet x (n_pre (x_heap x t))) in
  (none back_ /\ none ahead /\ recover buf off x s = Some (0, None, x, off)) \/
  exists l1 t l2 br r dst z off' U mid V nx new,
    (back_ = l1 ++ t :: l2 \/ none back_ /\ ahead = l1 ++ t :: l2) /\ none l1 /\ offers x t br /\
    recover buf off x s = Some (r, Some dst, z, off') /\ folded buf off x br z off' U mid V nx new /\
    let line := n_lno (x_heap x br) in
    (r <> 0 ->
      (exists s1 s2, s = s1 ++ s2 /\ r = S (List.length s1) /\ Forall (fun t => ~ front x line t) s1 /\ (forall t, hd_error s2 = Some t -> front x line t)) /\
      ((exists s1 u s2, s = s1 ++ u :: s2 /\ Forall (fun t => ~ front z line t) s1 /\ front z line u /\ x_cur z = Some u) \/ (Forall (fun t => ~ front z line t) s /\ x_cur z = None))) /\
    (r = 0 -> exists u, In u s /\ tyof z u = T_EOF).
Proof.
  intros buf q a back b m R x s off Et Ec Hm back_ ahead none. destruct (reached_good buf q R) as ((cs & L) & O & B & C). fold x s in L, O, B, C.
  pose proof (standing_one _ _ _ _ Hm (last_standing x s)) as ->. unfold recover, lexer_back, lexer_peek_first.
  assert (X : match x_cur x with Some t => Some t | None => hd_error (x_toks x) end = Some back). { destruct Ec as [->|(-> & ->)]; [reflexivity|rewrite Et; reflexivity]. }
  rewrite X. clear X.
  assert (Fl : forall fwd : bool, S (List.length (x_toks x)) > List.length (if fwd then b else a)) by (intros fwd; rewrite Et, app_length; cbn; destruct fwd; lia).
  pose proof (branch_exact x s cs false (last_stamped x s) a back b _ L Et (Fl false)) as X1. pose proof (branch_exact x s cs true (last_stamped x s) a back b _ L Et (Fl true)) as X2.
  destruct (find_branch_target x s cs false (last_stamped x s) a back b _ L Et (Fl false)) as (r1 & E1 & T1).
  destruct (find_branch_target x s cs true (last_stamped x s) a back b _ L Et (Fl true)) as (r2 & E2 & T2).
  rewrite E1, E2 in *. clear E1 E2. cbv beta iota in X1, X2. fold back_ in X1. fold ahead in X2. fold none in X1, X2.
  assert (X : (r1 = None /\ r2 = None /\ none back_ /\ none ahead) \/
    exists br, (match r1 with None => Some r2 | Some _ => Some r1 end) = Some (Some br) /\ (exists nx src dst, target x br nx src dst) /\
      exists l1 t l2, (back_ = l1 ++ t :: l2 \/ none back_ /\ ahead = l1 ++ t :: l2) /\ none l1 /\ offers x t br).
  { destruct r1 as [br|].
    - right. exists br. split; [reflexivity|]. split; [apply T1; reflexivity|]. destruct X1 as (l1 & t & l2 & X3 & X4 & X5). exists l1, t, l2. auto.
    - destruct r2 as [br|]; [|left; auto]. right. exists br. split; [reflexivity|]. split; [apply T2; reflexivity|]. destruct X2 as (l1 & t & l2 & X3 & X4 & X5). exists l1, t, l2. auto. }
  destruct X as [(-> & -> & N1 & N2)|(br & -> & (nx & src & dst & T) & l1 & t & l2 & Y1 & Y2 & Y3)]; [left; auto|]. right.
  destruct (fold_full x s cs buf off br nx src dst L O B C T) as (A & M & D & P1 & Rr & Q1 & Q2 & y & cs' & _ & _ & _ & F4 & F5 & _ & _ & F8 & _).
  destruct (fold_folded x s cs buf off br nx src dst L O B C T) as (y' & off' & U & mid & V & F4' & Fo). rewrite F4 in F4'. injection F4' as <- <-. rewrite F4.
  destruct (rewind_full y s cs' (find (in_front y (n_lno (x_heap x br))) s) F5 F8) as (ok & c & E3 & C3 & Z).
  { intros k K. apply find_some in K. apply (in_front_in y (n_lno (x_heap x br)) k). tauto. }
  rewrite E3. exists l1, t, l2, br, (if ok : bool then 1 + count_behind x (n_lno (x_heap x br)) s else 0), dst, (set_cur c y), (fun i => if i =? x_next x then off br else off i), U, mid, V, nx, (x_next x).
  split; [exact Y1|]. split; [exact Y2|]. split; [exact Y3|]. split; [reflexivity|]. split. { destruct Fo. constructor; assumption. } destruct ok.
  - split; [|discriminate]. intros _. split.
    + destruct (count_spec x (n_lno (x_heap x br)) s) as (s1 & s2 & S1 & S2 & S3 & S4). exists s1, s2. rewrite S2. auto.
    + cbn [x_cur set_cur]. destruct (find_front y (n_lno (x_heap x br)) s) as [(s1 & u & s2 & S1 & S2 & S3 & S4)|(S1 & S2)]; rewrite Z; [left|right].
      * exists s1, u, s2. auto.
      * auto.
  - split; [congruence|]. intros _. destruct Z as (_ & u & Z1 & Z2). exists u. split; [|exact Z2]. apply find_some in Z1. apply Z1.
Qed.

(** ** The text *)
(** Tokens and what is around them are parts of the input, in order. *)
Fixpoint laid (buf : bytes) (off : id -> nat) (h : heap) (lo : nat) (l : list id) : Prop :=
  match l with
  | [] => True
  | i :: l => lo <= off i /\ off i + List.length (n_str (h i)) <= List.length buf /\ n_str (h i) = piece buf (off i) (List.length (n_str (h i))) /\ laid buf off h (off i + List.length (n_str (h i))) l
  end.
Definition laid_out (buf : bytes) (off : id -> nat) (x : lex) : Prop := laid buf off (x_heap x) 0 (whole (x_heap x) (x_toks x)).
Lemma laid_low : forall buf off h l lo lo', lo' <= lo -> laid buf off h lo l -> laid buf off h lo' l.
Proof. intros buf off h [|i l] lo lo' H; cbn; [auto|]. intros (A & B). split; [lia|exact B]. Qed.
Lemma laid_ext : forall buf off h off' g l lo, (forall i, In i l -> n_str (g i) = n_str (h i) /\ off' i = off i) -> laid buf off h lo l -> laid buf off' g lo l.
Proof.
  intros buf off h off' g l. induction l as [|i l IH]; intros lo H; cbn; [auto|]. intros (A & B & C & D). destruct (H i (or_introl eq_refl)) as (-> & ->). repeat split; auto. apply IH; [|exact D]. intros j J. apply H. right. exact J.
Qed.
(** The end of a list of parts. *)
Fixpoint upper (off : id -> nat) (h : heap) (lo : nat) (l : list id) : nat := match l with [] => lo | i :: l => upper off h (off i + List.length (n_str (h i))) l end.
Lemma laid_app : forall buf off h a b lo, laid buf off h lo (a ++ b) <-> laid buf off h lo a /\ laid buf off h (upper off h lo a) b.
Proof. intros buf off h. induction a as [|i a IH]; intros b lo; cbn; [tauto|]. rewrite IH. tauto. Qed.
Lemma upper_low : forall buf off h l lo, laid buf off h lo l -> lo <= upper off h lo l.
Proof. intros buf off h. induction l as [|i l IH]; intros lo; cbn; [auto|]. intros (A & _ & _ & D). apply IH in D. lia. Qed.
Lemma upper_ext : forall off h off' g l lo, (forall i, In i l -> n_str (g i) = n_str (h i) /\ off' i = off i) -> upper off' g lo l = upper off h lo l.
Proof. intros off h off' g l. induction l as [|i l IH]; intros lo H; cbn; [auto|]. destruct (H i (or_introl eq_refl)) as (-> & ->). apply IH. intros j J. apply H. right. exact J. Qed.
Lemma laid_in : forall buf off h l lo i, laid buf off h lo l -> In i l -> lo <= off i /\ off i + List.length (n_str (h i)) <= upper off h lo l /\ n_str (h i) = piece buf (off i) (List.length (n_str (h i))).
Proof.
  intros buf off h. induction l as [|j l IH]; intros lo i; cbn; [tauto|]. intros (A & B & C & D) [->|I].
  - split; [exact A|]. split; [apply (upper_low _ _ _ _ _ D)|exact C].
  - destruct (IH _ _ D I) as (K1 & K2 & K3). split; [lia|]. split; [exact K2|exact K3].
Qed.
Lemma skipn_add : forall (A : Type) (n m : nat) (l : list A), skipn n (skipn m l) = skipn (m + n) l.
Proof. intros A n m. induction m as [|m IH]; intros l; [reflexivity|]. destruct l as [|c l]; [rewrite !skipn_nil; reflexivity|]. cbn. apply IH. Qed.
Lemma piece_piece : forall buf o n o' n', o <= o' -> o' + n' <= o + n -> piece (piece buf o n) (o' - o) n' = piece buf o' n'.
Proof.
  intros buf o n o' n' H1 H2. unfold piece. rewrite skipn_firstn_comm, firstn_firstn. rewrite Nat.min_l by lia. rewrite skipn_add. replace (o + (o' - o)) with o' by lia. reflexivity.
Qed.
Lemma piece_length : forall buf o n, o + n <= List.length buf -> List.length (piece buf o n) = n.
Proof. intros buf o n H. unfold piece. rewrite firstn_length, skipn_length. lia. Qed.
Lemma fold_laid : forall buf off x br z off' U mid V nx new, folded buf off x br z off' U mid V nx new -> laid_out buf off x ->
  laid_out buf off' z /\ forall i, In i (br :: mid ++ [nx]) -> piece (n_str (x_heap z new)) (off i - off br) (List.length (n_str (x_heap x i))) = n_str (x_heap x i).
Proof.
  intros buf off x br z off' U mid V nx new F H. destruct F as [_ F2 F3 F4 _ _ F5 _ F6 F7]. unfold laid_out in *. rewrite F2 in *. rewrite F3.
  assert (Same : forall i, In i (U ++ br :: mid ++ nx :: V) -> n_str (x_heap z i) = n_str (x_heap x i) /\ off' i = off i).
  { intros i I. destruct (F7 i) as ((S1 & _) & S2); [intros ->; contradiction|]. auto. }
  rewrite laid_app in H. destruct H as (HU & H). pose proof H as H0. cbn [laid] in H. destruct H as (B1 & B2 & B3 & H). rewrite laid_app in H. destruct H as (HM & H). cbn [laid] in H. destruct H as (N1 & N2 & N3 & HV).
  set (h := x_heap x) in *. set (e := off nx + List.length (n_str (h nx))) in *.
  assert (Le : off br + List.length (n_str (h br)) <= off nx). { pose proof (upper_low _ _ _ _ _ HM). lia. }
  assert (Ln : List.length (n_str (x_heap z new)) = e - off br). { rewrite F5. apply piece_length. fold h e. lia. }
  split.
  - rewrite laid_app. split.
    + eapply laid_ext; [|exact HU]. intros i I. apply Same. apply in_or_app. left. exact I.
    + rewrite (upper_ext off h off' (x_heap z)) by (intros i I; apply Same; apply in_or_app; left; exact I). cbn [laid]. rewrite F6, Ln. split; [exact B1|]. split; [lia|]. split; [exact F5|].
      replace (off br + (e - off br)) with e by lia. eapply laid_ext; [|exact HV]. intros i I. apply Same. apply in_or_app. right. right. apply in_or_app. right. right. exact I.
  - intros i I. rewrite F5. fold h e. assert (K : off br <= off i /\ off i + List.length (n_str (h i)) <= e /\ n_str (h i) = piece buf (off i) (List.length (n_str (h i)))).
    { destruct I as [<-|I]; [split; [lia|]; split; [lia|exact B3]|]. apply in_app_or in I. destruct I as [I|[<-|[]]]; [|split; [lia|]; split; [lia|exact N3]].
      destruct (laid_in _ _ _ _ _ _ HM I) as (K1 & K2 & K3). split; [lia|]. split; [lia|exact K3]. }
    destruct K as (K1 & K2 & K3). rewrite piece_piece by lia. symmetry. exact K3.
Qed.
Lemma laid_drop : forall buf off h a b c lo, laid buf off h lo (a ++ b ++ c) -> laid buf off h lo (a ++ c).
Proof.
  intros buf off h a b c lo H. rewrite !laid_app in *. destruct H as (A & B & C). split; [exact A|]. eapply laid_low; [|exact C]. apply (upper_low _ _ _ _ _ B).
Qed.

(** No text is lost by recovering: what is removed can be read from the new directive at the
    place where it was in the input.  Tokens and directives are still in order, which is so for
    taking a branch, too. *)
Theorem C67_text : forall buf q, reached buf q -> let x := s_lex q in let s := s_stamps q in let off := s_off q in laid_out buf off x ->
  (forall r u z off', recover buf off x s = Some (r, u, z, off') ->
    laid_out buf off' z /\ ((z = x /\ off' = off) \/ exists U br mid nx V new, whole (x_heap x) (x_toks x) = U ++ br :: mid ++ nx :: V /\ whole (x_heap z) (x_toks z) = U ++ new :: V /\ ~ In new (whole (x_heap x) (x_toks x)) /\
      (forall i, In i (U ++ V) -> n_str (x_heap z i) = n_str (x_heap x i)) /\
      forall i, In i (br :: mid ++ [nx]) -> piece (n_str (x_heap z new)) (off i - off br) (List.length (n_str (x_heap x i))) = n_str (x_heap x i))) /\
  (forall ok u z, take_branch x s = Some (ok, u, z) -> laid_out buf off z).
Proof.
  intros buf q R x s off Ly. destruct (reached_good buf q R) as ((cs & L) & O & B & C). fold x s in L, O, B, C. split.
  - intros r u z off' E. destruct (recover_full x s cs buf off L O B C) as [E'|(br & nx & src & dst & y & off2 & ok & c & T & F & C' & E' & _)]; rewrite E in E'; injection E' as -> -> -> ->; [auto|].
    destruct (fold_folded x s cs buf off br nx src dst L O B C T) as (y' & off3 & U & mid & V & F' & Fo). rewrite F in F'. injection F' as <- <-.
    destruct (fold_laid _ _ _ _ _ _ _ _ _ _ _ Fo Ly) as (K1 & K2). split; [exact K1|]. right. exists U, br, mid, nx, V, (x_next x). destruct Fo as [_ F2 F3 F4 _ _ _ _ _ F7].
    split; [exact F2|]. split; [exact F3|]. split; [exact F4|]. split; [|exact K2]. intros i I. apply F7. intros ->. apply F4. rewrite F2. apply in_app_or in I. apply in_or_app. destruct I as [I|I]; [left; exact I|]. right. right. apply in_or_app. right. right. exact I.
  - intros ok u z E. destruct (branch_full x s cs L O B C) as [(E' & _)|(br & nx & src & dst & A & M & D & ok' & y & c & cs' & _ & _ & _ & H4 & H5 & _ & _ & _ & _ & H6 & H7 & H8 & _)].
    + rewrite E in E'. injection E' as _ _ ->. exact Ly.
    + rewrite E in H5. injection H5 as _ _ ->. unfold laid_out in *. cbn [x_heap set_cur x_toks]. rewrite H6, (whole_same x y _ H8). eapply laid_ext with (off := off) (h := x_heap x).
      * intros i _. split; [apply (soft_text _ _ _ (H7 i))|reflexivity].
      * rewrite H4 in Ly. rewrite whole_app in Ly. change (src :: M ++ dst :: D) with ((src :: M) ++ dst :: D) in Ly. rewrite whole_app in Ly. rewrite whole_app. eapply laid_drop. exact Ly.
Qed.

(** ** Documents *)
Definition ascending (x : lex) : Prop := StronglySorted (fun i j => n_lno (x_heap x i) <= n_lno (x_heap x j)) (whole (x_heap x) (x_toks x)).
Lemma sorted_after : forall (R : id -> id -> Prop) a t b, StronglySorted R (a ++ t :: b) -> Forall (R t) b.
Proof. intros R a t b. induction a as [|u a IH]; intros H; inversion H; subst; auto. Qed.
Lemma sorted_subl : forall (R : id -> id -> Prop) l m, subl l m -> StronglySorted R m -> StronglySorted R l.
Proof.
  intros R l m H. induction H as [|a l m H IH|a l m H IH]; intros S; auto; inversion S as [|? ? S1 S2]; subst; auto. constructor; auto.
  apply Forall_forall. intros i I. rewrite Forall_forall in S2. apply S2. eapply subl_in; eauto.
Qed.
Lemma toks_whole : forall h l, subl l (whole h l).
Proof.
  intros h l. induction l as [|t l IH]; [constructor|]. change (whole h (t :: l)) with ((n_pre (h t) ++ t :: n_suf (h t)) ++ whole h l). rewrite <- app_assoc.
  change (t :: l) with ([] ++ (t :: [] ++ l)). apply subl_app; [apply subl_nil|]. cbn [app]. constructor. change l with ([] ++ l) at 1. apply subl_app; [apply subl_nil|exact IH].
Qed.
Lemma skip_find : forall x line s, hd_error (skipn (count_behind x line s) s) = find (in_front x line) s.
Proof. intros x line s. induction s as [|t s IH]; [reflexivity|]. cbn [count_behind find]. destruct (in_front x line t) eqn:E; [reflexivity|]. cbn [skipn]. exact IH. Qed.
Lemma skip_suffix : forall x line s, exists s1, s = s1 ++ skipn (count_behind x line s) s.
Proof. intros x line s. exists (firstn (count_behind x line s) s). symmetry. apply firstn_skipn. Qed.

Lemma app_cons_last : forall (a b : list id) t d, last (a ++ t :: b) d = last (t :: b) d.
Proof. intros a b t d. induction a as [|u a IH]; [reflexivity|]. cbn [app]. rewrite <- IH. destruct (a ++ t :: b) eqn:E; [destruct a; discriminate|reflexivity]. Qed.

(** Until the first recovery there is a stamp for each document, in order.  Then the cursor is
    behind the last document that is kept, and all of them are of tokens that are still there.
    Missing: later recoveries, for which it is false (see C67_docs_refuted). *)
Theorem C67_docs_partial : forall buf q t ok l', reached buf q -> let x := s_lex q in let s := s_stamps q in
  In t (x_toks x) -> ascending x -> subl (rev s) (x_toks x) -> Forall (fun u => tyof x u <> T_EOF) s ->
  loop_fail buf t (Loop x s (s_off q) s) = Some (ok, l') ->
  (ok = false /\ l_lex l' = set_cur (Some t) x) \/
  (ok = true /\ (exists s1, s = s1 ++ l_docs l') /\ hd_error (l_docs l') = x_cur (l_lex l') /\ Forall (fun u => In u (x_toks (l_lex l'))) (l_docs l')).
Proof.
  intros buf q t ok l' R x s It Asc Sub Ne E. unfold loop_fail in E. cbn [l_lex l_stamps l_off l_docs] in E.
  assert (R' : good (set_cur (Some t) x) s). { destruct (exec_good (OSeek t) x s (reached_good buf q R) It) as (y & s' & K & G). cbn in K. injection K as <- <-. exact G. }
  set (x1 := set_cur (Some t) x) in *. destruct R' as ((cs & L) & O & B & C). set (off := s_off q) in *.
  destruct (recover_full x1 s cs buf off L O B C) as [K|(br & nx & src & dst & y & off' & okk & c & T & F & C' & K & Z)]; rewrite K in E.
  { injection E as <- <-. left. auto. }
  destruct (fold_full x1 s cs buf off br nx src dst L O B C T) as (A & M & D & P1 & Rr & Q1 & Q2 & y' & cs' & H1 & H2 & H3 & H4 & L' & _ & _ & _ & H5 & _ & _ & _ & H9 & H10 & _). rewrite F in H4. injection H4 as <- _.
  set (line := n_lno (x_heap x1 br)) in *.
  assert (Late : forall u, In u (src :: M) -> line <= n_lno (x_heap x1 u)).
  { intros u I. unfold ascending in Asc. change (x_heap x) with (x_heap x1) in Asc. change (x_toks x) with (x_toks x1) in Asc. rewrite H1 in Asc. rewrite whole_app in Asc.
    change (whole (x_heap x1) (src :: M ++ dst :: D)) with ((n_pre (x_heap x1 src) ++ src :: n_suf (x_heap x1 src)) ++ whole (x_heap x1) (M ++ dst :: D)) in Asc. rewrite H2 in Asc.
    repeat (rewrite <- app_assoc in Asc; cbn [app] in Asc). rewrite app_assoc in Asc. apply sorted_after in Asc. rewrite Forall_forall in Asc. apply Asc. apply in_or_app. right. destruct I as [->|I]; [left; reflexivity|].
    right. apply in_or_app. right. apply whole_in. apply in_or_app. left. exact I. }
  assert (Fr : forall u, front x1 line u <-> front y line u).
  { intros u. assert (Nl : In u (x_toks x1) -> n_lno (x_heap y u) = n_lno (x_heap x1 u)). { intros I. apply H9. intros ->. pose proof (B (x_next x1) (or_introl (whole_in _ _ _ I))). lia. }
    split; intros (I & J).
    - split; [|rewrite Nl by exact I; exact J]. rewrite H5. rewrite H1 in I. apply in_app_or in I. apply in_or_app. destruct I as [I|I]; [auto|]. right. change (src :: M ++ dst :: D) with ((src :: M) ++ dst :: D) in I.
      apply in_app_or in I. destruct I as [I|I]; [|exact I]. exfalso. apply Late in I. lia.
    - assert (I' : In u (x_toks x1)). { rewrite H1. rewrite H5 in I. apply in_app_or in I. apply in_or_app. destruct I as [I|I]; [auto|]. right. right. apply in_or_app. right. exact I. }
      split; [exact I'|]. rewrite <- Nl by exact I'. exact J. }
  assert (Fi : find (in_front y line) s = find (in_front x1 line) s).
  { clear - Fr. induction s as [|u s IH]; [reflexivity|]. cbn [find]. rewrite IH. replace (in_front y line u) with (in_front x1 line u); [reflexivity|].
    apply Bool.eq_iff_eq_true. rewrite !front_spec. apply Fr. }
  destruct okk.
  - injection E as <- <-. right. split; [reflexivity|]. cbn [l_docs l_lex skipn Nat.add]. split; [apply skip_suffix|]. split; [rewrite skip_find, <- Fi, <- Z; reflexivity|].
    destruct (skip_suffix x1 line s) as (s1 & S1). pose proof (skip_find x1 line s) as Sf. destruct (skipn (count_behind x1 line s) s) as [|u s2] eqn:Sk; [constructor|].
    cbn [hd_error] in Sf. symmetry in Sf. apply find_some in Sf. destruct Sf as (_ & Sf). apply front_spec in Sf.
    assert (Fall : Forall (front x1 line) (u :: s2)).
    { constructor; [exact Sf|]. apply Forall_forall. intros v I. assert (Iv : In v (x_toks x1)). { apply (subl_in _ _ Sub). apply -> in_rev. rewrite S1. apply in_or_app. right. right. exact I. }
      split; [exact Iv|]. assert (Le : n_lno (x_heap x1 v) <= n_lno (x_heap x1 u)).
      { apply in_split in I. destruct I as (p & r & ->). assert (So : StronglySorted (fun i j => n_lno (x_heap x1 i) <= n_lno (x_heap x1 j)) (rev s)). { eapply sorted_subl; [exact Sub|]. eapply sorted_subl; [apply (toks_whole (x_heap x))|exact Asc]. }
        rewrite S1 in So. rewrite rev_app_distr in So. cbn [rev] in So. rewrite rev_app_distr in So. cbn [rev] in So. repeat (rewrite <- app_assoc in So; cbn [app] in So). apply sorted_after in So. rewrite Forall_forall in So. apply So.
        apply in_or_app. right. left. reflexivity. }
      destruct Sf as (_ & Sf). lia. }
    cbn [x_toks set_cur]. eapply Forall_impl; [|exact Fall]. intros v Hv. apply Fr in Hv. apply Hv.
  - exfalso. destruct Z as (_ & u & Z1 & Z2). apply find_some in Z1. destruct Z1 as (Z1 & Z3). rewrite Forall_forall in Ne. apply (Ne u Z1). apply front_spec in Z3. destruct Z3 as (Z3 & _).
    destruct (wl_eof _ _ (li_wfl _ _ _ L)) as (body & e & W1 & W2 & _). destruct (wl_eof _ _ (li_wfl _ _ _ L')) as (body' & e' & V1 & V2 & V3).
    assert (u = e'). { rewrite V1 in Z3. apply in_app_or in Z3. destruct Z3 as [Z3|[<-|[]]]; [|reflexivity]. rewrite Forall_forall in V3. exfalso. apply (V3 u Z3). exact Z2. } subst e'.
    assert (e = u). { rewrite H5 in V1. rewrite H1 in W1. apply (f_equal (fun l => last l 0)) in V1, W1. rewrite last_last in V1, W1. rewrite <- V1, <- W1. rewrite (app_cons_last A D dst), (app_comm_cons M), (app_assoc A), (app_cons_last (A ++ src :: M) D dst). reflexivity. }
    subst e. exact W2.
Qed.

(** ** Examples *)
(** int f(void) { } #if X int c; ) #endif #if Y ) #endif int d; *)
Definition nd (ty : ttype) (l : nat) (s : string) (pre : list id) : node := Node ty 0 l 1 (s2b s) 1 true pre [] None None None.
Definition ex_text : bytes := s2b "int f(void) { }
#if X
int c;
)
#endif
#if Y
)
#endif
int d;
".
Definition ex_file : lex := stream
  [nd T_INT 1 "int" []; nd T_IDENT 1 "f" []; nd T_LPAREN 1 "(" []; nd T_VOID 1 "void" []; nd T_RPAREN 1 ")" []; nd T_LBRACE 1 "{" []; nd T_RBRACE 1 "}" [];
   nd T_INT 3 "int" [16]; nd T_IDENT 3 "c" []; nd T_SEMI 3 ";" []; nd T_RPAREN 4 ")" [];
   nd T_RPAREN 7 ")" [17; 18]; nd T_INT 9 "int" [19]; nd T_IDENT 9 "d" []; nd T_SEMI 9 ";" []; nd T_EOF 10 "" [];
   nd T_CPP_IF 2 "#if X
" []; nd T_CPP_ENDIF 5 "#endif
" []; nd T_CPP_IF 6 "#if Y
" []; nd T_CPP_ENDIF 8 "#endif
" []]%string [0;1;2;3;4;5;6;7;8;9;10;11;12;13;14;15].
Definition ex_off (i : id) : nat := nth i [0;4;5;6;10;12;14;22;26;27;29;44;53;57;58;60;16;31;38;46] 0.
Lemma ex_file_all : forall (P : id -> Prop), (forall i, i < 20 -> P i) -> (forall i, x_heap ex_file i = x_heap ex_file 20 -> P i) -> forall i, P i.
Proof. intros P A B i. destruct (Nat.lt_ge_cases i 20); [auto|apply B]. do 20 (destruct i as [|i]; [lia|]). destruct i; reflexivity. Qed.
Ltac small20 i H := do 20 (destruct i as [|i]; [vm_compute; auto 10|]); lia.
Example ex_file_fresh : fresh ex_file.
Proof.
  split; [|split; [|split; [|split]]].
  - constructor.
    + vm_compute. repeat constructor; simpl; intuition lia.
    + vm_compute. intuition lia.
    + apply ex_file_all; [intros i Hi; small20 i Hi|intros i ->; vm_compute; auto].
    + apply ex_file_all; [intros i Hi; small20 i Hi|intros i ->; vm_compute; auto].
    + intros t Ht. change (x_toks ex_file) with [0;1;2;3;4;5;6;7;8;9;10;11;12;13;14;15] in Ht. cbn in Ht. intuition (subst; vm_compute; lia).
  - exists [0;1;2;3;4;5;6;7;8;9;10;11;12;13;14], 15. split; [reflexivity|split; [reflexivity|]]. repeat constructor; vm_compute; discriminate.
  - change (x_toks ex_file) with [0;1;2;3;4;5;6;7;8;9;10;11;12;13;14;15]. intros t Ht. cbn in Ht. intuition (subst; reflexivity).
  - change (x_toks ex_file) with [0;1;2;3;4;5;6;7;8;9;10;11;12;13;14;15]. intros t p Ht Hp. cbn in Ht. intuition (subst; cbn in Hp; intuition (subst; auto)).
  - change (x_toks ex_file) with [0;1;2;3;4;5;6;7;8;9;10;11;12;13;14;15]. intros t p Ht Hp. cbn in Ht. intuition (subst; cbn in Hp; contradiction).
Qed.
Definition ex_read : lex := match tokenize_branches ex_file with Some x => x | None => ex_file end.
Example ex_read_eq : tokenize_branches ex_file = Some ex_read.
Proof. unfold ex_read. destruct (tokenize_branches ex_file) eqn:E; [reflexivity|]. vm_compute in E. discriminate. Qed.
(** Seeking and stamping only. *)
Fixpoint play (ts : list id) (q : state) : state :=
  match ts with [] => q | t :: ts => let (x, s) := stamp (set_cur (Some t) (s_lex q)) (s_stamps q) in play ts (State x s (s_off q)) end.
Lemma play_history : forall buf ts q r, (forall t, In t ts -> In t (x_toks (s_lex r))) -> history buf q r -> history buf q (play ts r).
Proof.
  intros buf. induction ts as [|t ts IH]; intros q r I H; [exact H|]. cbn [play]. destruct (stamp (set_cur (Some t) (s_lex r)) (s_stamps r)) as [x s] eqn:E. apply IH.
  - intros u J. cbn [s_lex]. replace (x_toks x) with (x_toks (s_lex r)); [apply I; right; exact J|]. unfold stamp in E. cbn in E. injection E as <- _. reflexivity.
  - eapply (hi_step buf q (State (set_cur (Some t) (s_lex r)) (s_stamps r) (s_off r)) (Plain OStamp)); [|exact Logic.I|cbn [act exec s_lex s_stamps s_off]; rewrite E; reflexivity].
    eapply (hi_step buf q r (Plain (OSeek t))); [exact H|apply I; left; reflexivity|reflexivity].
Qed.
(** The declarations of f and c were read. *)
Definition ex_start : state := play [6; 9] (State ex_read [] ex_off).
Example ex_reached : reached ex_text ex_start.
Proof.
  exists ex_file, ex_read, ex_off. split; [apply ex_file_fresh|]. split; [intros t; discriminate|]. split; [apply ex_read_eq|]. unfold ex_start. apply play_history; [|constructor].
  intros t I. vm_compute in I. vm_compute. intuition (subst; auto 20).
Qed.
Example ex_laid : laid_out ex_text (s_off ex_start) (s_lex ex_start).
Proof. vm_compute. repeat split; try (repeat constructor; fail). Qed.
Fixpoint ascb (l : list nat) : bool := match l with [] => true | n :: l => forallb (Nat.leb n) l && ascb l end.
Lemma ascb_ascending : forall x, ascb (map (fun i => n_lno (x_heap x i)) (whole (x_heap x) (x_toks x))) = true -> ascending x.
Proof.
  intros x. unfold ascending. induction (whole (x_heap x) (x_toks x)) as [|i l IH]; intros H; [constructor|]. cbn [map ascb] in H. apply andb_true_iff in H. destruct H as (H1 & H2). constructor; [apply IH; exact H2|].
  apply Forall_forall. intros j J. rewrite forallb_forall in H1. apply Nat.leb_le. apply (H1 (n_lno (x_heap x j))). apply in_map_iff. exists j. auto.
Qed.
Example ex_asc : ascending (s_lex ex_start) /\ subl (rev (s_stamps ex_start)) (x_toks (s_lex ex_start)) /\ Forall (fun u => tyof (s_lex ex_start) u <> T_EOF) (s_stamps ex_start).
Proof.
  split; [|split].
  - apply ascb_ascending. vm_compute. reflexivity.
  - vm_compute. repeat (first [apply su_keep|apply su_drop|apply su_nil]).
  - vm_compute. repeat constructor; discriminate.
Qed.
(** Recovering at the parenthesis: the first conditional becomes one directive, two documents are
    to be removed, and reading goes on behind the declaration of f. *)
Example C67_ex : match recover ex_text ex_off (s_lex ex_start) [9; 6] with
  | Some (r, u, z, off) => r = 2 /\ u = Some 11 /\ x_cur z = Some 6 /\ x_toks z = [0;1;2;3;4;5;6;11;12;13;14;15] /\ n_pre (x_heap z 11) = [20; 18] /\ off 20 = 16 /\
      n_str (x_heap z 20) = s2b "#if X
int c;
)
#endif
"
  | None => False end.
Proof. vm_compute. auto 10. Qed.
(** #if X int #else long #endif d; *)
Definition ex_else : lex := stream
  [nd T_INT 2 "int" [5]; nd T_LONG 4 "long" [6]; nd T_IDENT 6 "d" [7]; nd T_SEMI 6 ";" []; nd T_EOF 7 "" []; nd T_CPP_IF 1 "#if" []; nd T_CPP_ELSE 3 "#else" []; nd T_CPP_ENDIF 5 "#endif" []]%string [0;1;2;3;4].
Example C67_ex_branch : match tokenize_branches ex_else with
  | Some x => switches (set_cur (Some 1) x) 1 5 6 /\
      match take_branch (set_cur (Some 1) x) [] with
      | Some (ok, u, z) => ok = true /\ u = Some 1 /\ x_toks z = [1;2;3;4] /\ x_cur z = None /\ n_pre (x_heap z 1) = [6]
      | None => False end
  | None => False end.
Proof. vm_compute. repeat split; auto; discriminate. Qed.

(** ** Fault *)
(** Stamps are not removed along with the documents, and those of tokens removed are counted
    again: the second recovery removes the document of a function that is not read again, that
    is, the function is missing from the output. *)
Theorem C67_docs_refuted : exists x0 x off buf l1 l2, fresh x0 /\ cur_ok x0 /\ tokenize_branches x0 = Some x /\
  loop_fail buf 9 (loop_good 9 (loop_good 6 (Loop x [] off []))) = Some (true, l1) /\ l_docs l1 = [6] /\ x_cur (l_lex l1) = Some 6 /\
  loop_fail buf 6 l1 = Some (true, l2) /\ l_docs l2 = [] /\ x_cur (l_lex l2) = Some 6 /\ In 6 (x_toks (l_lex l2)).
Proof.
  exists ex_file, ex_read, ex_off, ex_text.
  destruct (loop_fail ex_text 9 (loop_good 9 (loop_good 6 (Loop ex_read [] ex_off [])))) as [[ok1 l1]|] eqn:E1; [|exfalso; revert E1; vm_compute; discriminate].
  assert (E2 : match loop_fail ex_text 9 (loop_good 9 (loop_good 6 (Loop ex_read [] ex_off []))) with Some (ok, l1) => ok = true /\ l_docs l1 = [6] /\ x_cur (l_lex l1) = Some 6 /\
    match loop_fail ex_text 6 l1 with Some (ok2, l2) => ok2 = true /\ l_docs l2 = [] /\ x_cur (l_lex l2) = Some 6 /\ In 6 (x_toks (l_lex l2)) | None => False end | None => False end) by (vm_compute; auto 20).
  rewrite E1 in E2. destruct E2 as (-> & D1 & C1 & E2). destruct (loop_fail ex_text 6 l1) as [[ok2 l2]|] eqn:E3; [|contradiction]. destruct E2 as (-> & D2 & C2 & I2).
  exists l1, l2. split; [apply ex_file_fresh|]. split; [intros t; discriminate|]. split; [apply ex_read_eq|]. split; [exact E1 || reflexivity|]. split; [exact D1|]. split; [exact C1|]. split; [exact E3|]. auto.
Qed.
Print Assumptions C67_progress.
Print Assumptions C67_balanced.
Print Assumptions C67_branch.
Print Assumptions C67_recover.
Print Assumptions C67_text.
Print Assumptions C67_docs_partial.
Print Assumptions C67_docs_refuted.
