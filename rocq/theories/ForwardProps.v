(** C32: sorting of forward declarations. *)
From Coq Require Import Permutation Sorted.
From Verif Require Import Base TokenModel UtilModel StreamModel StreamProofs StreamProps TokListModel TokListProofs ForwardModel ForwardProofs.
From Verif Require IncludeModel IncludeProps.

(** ** Specification *)
(** The tokens of a forward declaration: struct tag; or typedef struct tag name; *)
Definition is_decl (h : heap) (l : list id) : bool :=
  match List.map (fun t => n_type (h t)) l with
  | [T_STRUCT; T_IDENT; T_SEMI] | [T_TYPEDEF; T_STRUCT; T_IDENT; T_IDENT; T_SEMI] => true
  | _ => false
  end.
(** The token after struct. *)
Definition tag_of (l : list id) : id := match l with [_; i; _] => i | [_; _; i; _; _] => i | _ => 0 end.
(** Order of text: a proper prefix comes first, otherwise the first difference decides. *)
Definition text_le (a b : bytes) : Prop :=
  (exists c, b = a ++ c) \/ (exists p c d a' b', a = p ++ c :: a' /\ b = p ++ d :: b' /\ nat_of_ascii c < nat_of_ascii d).
Definition tag_le (h : heap) (a b : list id) : Prop := text_le (n_str (h (tag_of a))) (n_str (h (tag_of b))).
(** The tokens of a block of declarations in pieces: the tokens of a declaration [simple_decl_forward]
    is called for or other tokens. *)
Inductive piece := Other (l : list id) | Call (l : list id).
Definition ptoks (p : piece) : list id := match p with Other l => l | Call l => l end.
Definition calls (ps : list piece) : list (id * id) :=
  flat_map (fun p => match p with Call (t :: l) => [(t, last l t)] | _ => [] end) ps.
(** A declaration is sorted unless the changes given do not cover it; anything else but a forward
    declaration ends a run of declarations. *)
Definition sorts (h : heap) (diff : bool) (p : piece) : bool :=
  match p with Call l => is_decl h l && (negb diff || forallb (fun t => has_flag (n_flags (h t)) F_DIFF) l) | Other _ => false end.
Definition ends (h : heap) (p : piece) : bool := match p with Call l => negb (is_decl h l) | Other _ => false end.
Definition mark (h : heap) (diff : bool) (p : piece) : bool * list id := (sorts h diff p, ptoks p).
(** A run gives its declarations in order at the place of the first one; other tokens stay in order. *)
Definition sorted_run (le : list id -> list id -> Prop) (b : list (bool * list id)) (out : list id) : Prop :=
  exists pre rest ss, b = pre ++ rest /\ fwds pre = [] /\ (rest = [] \/ exists s r, rest = (true, s) :: r) /\
    Permutation (fwds rest) ss /\ StronglySorted le ss /\ out = flat pre ++ concat ss ++ others rest.
Inductive sorted_block (h : heap) (diff : bool) : list piece -> list id -> Prop :=
  | SB_last : forall b out, existsb (ends h) b = false -> sorted_run (tag_le h) (List.map (mark h diff) b) out -> sorted_block h diff b out
  | SB_more : forall b out p ps out', existsb (ends h) b = false -> sorted_run (tag_le h) (List.map (mark h diff) b) out -> ends h p = true ->
      sorted_block h diff ps out' -> sorted_block h diff (b ++ p :: ps) (out ++ ptoks p ++ out').

(** ** Proofs *)
Lemma lex_text : forall a b, ~ In NUL a -> ~ In NUL b -> (IncludeModel.token_strcmp a b <= 0)%Z -> text_le a b.
Proof.
  intros a b Na Nb H. apply IncludeProps.strcmp_le in H. unfold IncludeProps.tkey in H.
  assert (K : forall n c, ~ In NUL c -> IncludeProps.enc n c = List.map IncludeProps.bv c).
  { intros n. induction c as [|y c IH]; intros N; [reflexivity|]. cbn. destruct (Ascii.eqb_spec y NUL) as [->|_]; [exfalso; apply N; left; reflexivity|]. f_equal. apply IH. intros Q. apply N. right. exact Q. }
  rewrite !K in H by assumption. clear K. revert b Nb H. induction a as [|y a IH]; intros b Nb H; [left; exists b; reflexivity|].
  destruct b as [|z b]; cbn in H; [lia|]. destruct (Z.ltb_spec (IncludeProps.bv y) (IncludeProps.bv z)) as [L|L].
  - right. exists [], y, z, a, b. unfold IncludeProps.bv in L. repeat split; lia.
  - destruct (Z.ltb_spec (IncludeProps.bv z) (IncludeProps.bv y)) as [L2|L2]; [lia|]. assert (y = z) as -> by (apply IncludeProps.bv_inj; lia).
    destruct (IH ltac:(intros Q; apply Na; right; exact Q) b ltac:(intros Q; apply Nb; right; exact Q) H) as [(c & ->)|(p & c & d & a' & b' & -> & -> & L3)]; [left; exists c; reflexivity|].
    right. exists (z :: p), c, d, a', b'. auto.
Qed.
Lemma decl_consistent : forall h, IncludeProps.consistent (decl_cmp h).
Proof.
  intros h. split; unfold decl_cmp.
  - intros a b. rewrite !IncludeProps.strcmp_lex, IncludeProps.lex_anti. lia.
  - intros a b c. rewrite !IncludeProps.strcmp_le. apply IncludeProps.lex_trans.
Qed.
Definition mk (l : list id) : decl := Decl (hd 0 l) (tag_of l) (last l 0).
Lemma mk_spans : forall l, l <> [] -> spans (mk l) l.
Proof. intros [|t r] N; [congruence|]. exists r. split; [reflexivity|]. apply last_cons_snoc. Qed.
Definition state (segs : list (list id)) : fwd := Fwd (List.map mk segs) (match segs with [] => None | l :: _ => Some (last l 0) end).

Lemma run_split : forall b, exists pre rest, b = pre ++ rest /\ fwds pre = [] /\ (rest = [] \/ exists s r, rest = (true, s) :: r).
Proof.
  induction b as [|[[] s] b (pre & rest & E & F & R)]; [exists [], []; auto|exists [], ((true, s) :: b); eauto 6|subst b; exists ((false, s) :: pre), rest; auto].
Qed.
Lemma fwds_in : forall b l t, In l (fwds b) -> In t l -> In t (flat b).
Proof. intros b l t H I. destruct (fwds_split _ _ H) as (a & c & ->). rewrite flat_app. apply in_or_app. right. cbn. apply in_or_app. left. exact I. Qed.
Lemma hd_in : forall (l : list id), l <> [] -> In (hd 0 l) l.
Proof. intros [|t l] N; [congruence|left; reflexivity]. Qed.
Lemma last_in : forall (l : list id) d, l <> [] -> In (last l d) l.
Proof. intros l d N. destruct (exists_last N) as (a & z & ->). rewrite last_last. apply in_or_app. right. left. reflexivity. Qed.
Lemma last_map : forall A B (f : A -> B) l d, last (List.map f l) (f d) = f (last l d).
Proof. induction l as [|a l IH]; intros d; [reflexivity|]. destruct l as [|b l]; [reflexivity|]. exact (IH d). Qed.
Lemma last_default : forall A (l : list A) d e, l <> [] -> last l d = last l e.
Proof. intros A l d e N. destruct (exists_last N) as (a & z & ->). rewrite !last_last. reflexivity. Qed.
Lemma flat_perm : forall b, Permutation (flat b) (concat (fwds b) ++ others b).
Proof.
  induction b as [|[[] s] b IH]; [reflexivity| |].
  - change (fwds ((true, s) :: b)) with (s :: fwds b). change (others ((true, s) :: b)) with (others b). change (flat ((true, s) :: b)) with (s ++ flat b). cbn [concat]. rewrite <- app_assoc. apply Permutation_app_head, IH.
  - change (fwds ((false, s) :: b)) with (fwds b). change (others ((false, s) :: b)) with (s ++ others b). change (flat ((false, s) :: b)) with (s ++ flat b). rewrite IH, !app_assoc. apply Permutation_app_tail, Permutation_app_comm.
Qed.
Lemma concat_perm : forall (a b : list (list id)), Permutation a b -> Permutation (concat a) (concat b).
Proof. induction 1; cbn [concat]; [reflexivity|apply Permutation_app_head; assumption|rewrite !app_assoc; apply Permutation_app_tail, Permutation_app_comm|etransitivity; eassumption]. Qed.
Lemma run_perm : forall le b out, sorted_run le b out -> Permutation out (flat b).
Proof.
  intros le b out (pre & rest & ss & -> & F & _ & P & _ & ->). rewrite flat_app. apply Permutation_app_head. rewrite flat_perm. apply Permutation_app_tail, concat_perm. symmetry. exact P.
Qed.

(** Prefixes of the first declaration stay first, blanks after the last one stay last. *)
Definition trivia (h g : heap) (b0 b1 e0 e1 : id) : Prop := forall t,
  n_pre (g t) = (if b0 =? b1 then n_pre (h t) else if t =? b0 then [] else if t =? b1 then n_pre (h b0) ++ n_pre (h b1) else n_pre (h t)) /\
  n_suf (g t) = (if e0 =? e1 then n_suf (h t) else if t =? e0 then filter (fun s => negb (is_space h s)) (n_suf (h e0))
    else if t =? e1 then n_suf (h e1) ++ filter (is_space h) (n_suf (h e0)) else n_suf (h t)).
(** *** Recognition *)
Lemma match_types_spec : forall ts l t p q toks h, NoDup toks -> toks = p ++ (t :: l) ++ q ->
  match_types toks h (last l t) ts t = Some (if list_eq_dec ttype_eq_dec (List.map (fun t => n_type (h t)) (t :: l)) (firstn (S (length l)) ts) then true else false).
Proof.
  induction ts as [|ty ts IH]; intros l t p q toks h ND E; cbn [match_types].
  - destruct (list_eq_dec ttype_eq_dec _ _) as [K|K]; [discriminate|reflexivity].
  - assert (NXT : next_of toks t = hd_error (l ++ q)) by (rewrite E in *; cbn [app] in *; apply next_split; apply (nodup_split _ _ _ ND)).
    cbn [firstn List.map]. destruct (ttype_eqb (n_type (h t)) ty) eqn:T; cbn [negb].
    + apply ttype_eqb_eq in T. destruct l as [|t' l].
      * cbn [last]. rewrite Nat.eqb_refl. destruct (list_eq_dec ttype_eq_dec _ _) as [K|K]; [reflexivity|]. exfalso. apply K. rewrite T. reflexivity.
      * rewrite last_cons_snoc. assert (NL : (t =? last l t') = false). { rewrite <- (last_cons_snoc l t' t). eapply (in_last_neq p); [|discriminate]. rewrite E in ND. rewrite app_assoc in ND. apply nodup_app_l in ND. exact ND. }
        rewrite NL. destruct ts as [|ty2 ts].
        -- cbn [length firstn]. destruct (list_eq_dec ttype_eq_dec _ _) as [K|K]; [discriminate|reflexivity].
        -- rewrite NXT. cbn [app hd_error]. rewrite (IH l t' (p ++ [t]) q toks h ND) by (rewrite E, <- app_assoc; reflexivity).
           cbn [length]. destruct (list_eq_dec ttype_eq_dec (List.map _ (t' :: l)) _) as [K|K], (list_eq_dec ttype_eq_dec (_ :: List.map _ (t' :: l)) _) as [K2|K2]; try reflexivity; exfalso.
           ++ apply K2. rewrite K, T. reflexivity.
           ++ apply K. cbn [List.map] in *. injection K2. intros; congruence.
    + apply ttype_eqb_neq in T. destruct (list_eq_dec ttype_eq_dec _ _) as [K|K]; [|reflexivity]. cbn [length firstn] in K. congruence.
Qed.
Lemma is_forward_spec : forall l t p q x, NoDup (x_toks x) -> x_toks x = p ++ (t :: l) ++ q -> n_type (x_heap x (last l t)) = T_SEMI ->
  is_forward_decl x t (last l t) = Some (is_decl (x_heap x) (t :: l)).
Proof.
  intros l t p q x ND E SE. unfold is_forward_decl, forward_types, match_any. rewrite !(match_types_spec _ l t p q _ _ ND E). unfold is_decl.
  set (tys := List.map (fun t => n_type (x_heap x t)) (t :: l)).
  assert (LT : length tys = S (length l)) by (unfold tys; rewrite map_length; reflexivity).
  assert (LAST : last tys T_NONE = T_SEMI). { unfold tys. rewrite <- SE. rewrite <- (last_cons_snoc l t t). rewrite <- (last_map _ _ (fun t => n_type (x_heap x t))). apply last_default. discriminate. }
  clearbody tys. rewrite <- LT. clear -LAST.
  assert (D : forall n u, last (firstn n u) T_NONE = T_SEMI -> (u = [T_TYPEDEF; T_STRUCT; T_IDENT; T_IDENT; T_SEMI] \/ u = [T_STRUCT; T_IDENT; T_SEMI]) -> firstn n u = u).
  { intros n u H [-> | ->]; do 6 (destruct n as [|n]; [try discriminate H; try reflexivity|]); destruct n; reflexivity. }
  destruct (list_eq_dec ttype_eq_dec tys (firstn _ [T_TYPEDEF; _; _; _; _])) as [K|K].
  - rewrite D in K by (rewrite <- ?K; auto). rewrite K. reflexivity.
  - destruct (list_eq_dec ttype_eq_dec tys (firstn _ [T_STRUCT; _; _])) as [K2|K2].
    + rewrite D in K2 by (rewrite <- ?K2; auto). rewrite K2. reflexivity.
    + assert (K' : tys <> [T_TYPEDEF; T_STRUCT; T_IDENT; T_IDENT; T_SEMI]) by (intros ->; apply K; reflexivity). assert (K2' : tys <> [T_STRUCT; T_IDENT; T_SEMI]) by (intros ->; apply K2; reflexivity).
      clear -K' K2'. f_equal. symmetry. destruct tys as [|t0 [|t1 [|t2 [|t3 [|t4 [|t5 tys]]]]]]; try (destruct t0; reflexivity); try reflexivity.
      * destruct t0; reflexivity || (destruct t1; reflexivity).
      * destruct t0; try reflexivity; destruct t1; try reflexivity; destruct t2; reflexivity || congruence.
      * destruct t0; try reflexivity; destruct t1; try reflexivity; destruct t2; try reflexivity; destruct t3; reflexivity.
      * destruct t0; try reflexivity; destruct t1; try reflexivity; destruct t2; try reflexivity; destruct t3; try reflexivity; destruct t4; reflexivity || congruence.
      * destruct t0; try reflexivity; destruct t1; try reflexivity; destruct t2; try reflexivity; destruct t3; try reflexivity; destruct t4; reflexivity.
Qed.

Lemma covered_spec : forall l t p q x fuel, NoDup (x_toks x) -> x_toks x = p ++ (t :: l) ++ q -> length l < fuel ->
  is_covered fuel x t (last l t) = Some (forallb (fun t => has_flag (n_flags (x_heap x t)) F_DIFF) (t :: l)).
Proof.
  induction l as [|t' l IH]; intros t p q x fuel ND E L; (destruct fuel as [|fuel]; [lia|]); cbn [is_covered]; unfold flagged; cbn [forallb].
  - cbn [last]. rewrite Nat.eqb_refl. destruct (has_flag _ _); reflexivity.
  - destruct (has_flag (n_flags (x_heap x t)) F_DIFF); [|reflexivity]. cbn [negb andb]. rewrite last_cons_snoc.
    assert (NL : (t =? last l t') = false). { rewrite <- (last_cons_snoc l t' t). eapply (in_last_neq p); [|discriminate]. rewrite E in ND. rewrite app_assoc in ND. apply nodup_app_l in ND. exact ND. }
    assert (NXT : next_of (x_toks x) t = Some t') by (rewrite E in *; cbn [app] in *; rewrite next_split by (apply (nodup_split _ _ _ ND)); reflexivity).
    rewrite NL, NXT. apply (IH t' (p ++ [t]) q x fuel ND); [rewrite E, <- app_assoc; reflexivity|cbn [length] in L; lia].
Qed.
Lemma is_decl_inv : forall h l, is_decl h l = true ->
  (exists a i c, l = [a; i; c] /\ n_type (h a) = T_STRUCT /\ n_type (h i) = T_IDENT /\ n_type (h c) = T_SEMI) \/
  (exists a b i n c, l = [a; b; i; n; c] /\ n_type (h a) = T_TYPEDEF /\ n_type (h b) = T_STRUCT /\ n_type (h i) = T_IDENT /\ n_type (h n) = T_IDENT /\ n_type (h c) = T_SEMI).
Proof.
  intros h l H. unfold is_decl in H.
  destruct l as [|a [|b [|c [|d [|e [|f l]]]]]]; cbn [List.map] in H.
  - discriminate.
  - destruct (n_type (h a)); discriminate.
  - destruct (n_type (h a)); try discriminate; destruct (n_type (h b)); discriminate.
  - left. exists a, b, c. destruct (n_type (h a)); try discriminate H; destruct (n_type (h b)); try discriminate H; destruct (n_type (h c)); try discriminate H. auto.
  - destruct (n_type (h a)); try discriminate H; destruct (n_type (h b)); try discriminate H; destruct (n_type (h c)); try discriminate H; destruct (n_type (h d)); discriminate H.
  - right. exists a, b, c, d, e. destruct (n_type (h a)); try discriminate H; destruct (n_type (h b)); try discriminate H; destruct (n_type (h c)); try discriminate H; destruct (n_type (h d)); try discriminate H; destruct (n_type (h e)); try discriminate H. auto 10.
  - destruct (n_type (h a)); try discriminate H; destruct (n_type (h b)); try discriminate H; destruct (n_type (h c)); try discriminate H; destruct (n_type (h d)); try discriminate H; destruct (n_type (h e)); discriminate H.
Qed.
Lemma find_ident_spec : forall l t p q x, NoDup (x_toks x) -> x_toks x = p ++ (t :: l) ++ q -> is_decl (x_heap x) (t :: l) = true -> find_ident x t = Some (tag_of (t :: l)).
Proof.
  intros l t p q x ND E D. unfold find_ident, tyof. destruct (is_decl_inv _ _ D) as [(a & i & c & El & T1 & T2 & T3)|(a & b & i & n & c & El & T1 & T2 & T3 & _)]; injection El as -> ->; rewrite T1.
  - change (ttype_eqb T_STRUCT T_TYPEDEF) with false. cbn [tag_of]. rewrite T1. cbn [ttype_eqb]. change (ttype_eqb T_STRUCT T_STRUCT) with true. cbn iota. rewrite E in *. cbn [app] in *. rewrite next_split by (apply (nodup_split _ _ _ ND)). reflexivity.
  - change (ttype_eqb T_TYPEDEF T_TYPEDEF) with true. cbn iota. assert (NX : next_of (x_toks x) a = Some b) by (rewrite E in *; cbn [app] in *; rewrite next_split by (apply (nodup_split _ _ _ ND)); reflexivity).
    rewrite NX, T2. change (ttype_eqb T_STRUCT T_STRUCT) with true. cbn iota. rewrite E in *. cbn [app tag_of] in *. rewrite app_cons1 in ND |- *. rewrite next_split by (apply (nodup_split _ _ _ ND)). reflexivity.
Qed.
Lemma diff_alike : forall f g, N.ldiff g F_BRANCH = N.ldiff f F_BRANCH -> has_flag g F_DIFF = has_flag f F_DIFF.
Proof.
  intros f g H. unfold has_flag. f_equal. f_equal.
  assert (K : forall f, N.land f F_DIFF = N.land (N.ldiff f F_BRANCH) F_DIFF).
  { intros k. apply N.bits_inj. intros n. rewrite !N.land_spec, N.ldiff_spec. assert (Z : N.testbit (N.land F_BRANCH F_DIFF) n = false) by apply N.bits_0. rewrite N.land_spec in Z. destruct (N.testbit k n), (N.testbit F_BRANCH n), (N.testbit F_DIFF n); try reflexivity; discriminate. }
  rewrite (K f), (K g), H. reflexivity.
Qed.
Lemma is_decl_alike : forall h g l, alike h g -> is_decl g l = is_decl h l.
Proof. intros h g l A. unfold is_decl. rewrite (map_ext _ (fun t => n_type (h t))); [reflexivity|]. intros t. apply A. Qed.
Lemma covered_alike : forall h g l, alike h g -> forallb (fun t => has_flag (n_flags (g t)) F_DIFF) l = forallb (fun t => has_flag (n_flags (h t)) F_DIFF) l.
Proof. intros h g l A. induction l as [|t l IH]; [reflexivity|]. cbn [forallb]. rewrite IH. f_equal. apply diff_alike, A. Qed.
Lemma sorted_weaken : forall A (R R' : A -> A -> Prop) l, StronglySorted R l -> (forall a b, In a l -> In b l -> R a b -> R' a b) -> StronglySorted R' l.
Proof.
  intros A R R' l S. induction S as [|a l S IH F]; intros H; constructor.
  - apply IH. intros; apply H; auto; right; assumption.
  - rewrite Forall_forall in *. intros b Hb. apply H; [left; reflexivity|right; exact Hb|apply F, Hb].
Qed.
Lemma run_weaken : forall (R R' : list id -> list id -> Prop) b out, sorted_run R b out -> (forall a c, In a (fwds b) -> In c (fwds b) -> R a c -> R' a c) -> sorted_run R' b out.
Proof.
  intros R R' b out (pre & rest & ss & Eb & F & HR & P & S & O) H. exists pre, rest, ss. repeat split; auto. apply (sorted_weaken _ R); [exact S|]. intros a c Ia Ic. apply H; rewrite Eb, fwds_app; apply in_or_app; right; (eapply Permutation_in; [symmetry; exact P|assumption]).
Qed.
(** The declarations the pass is called for end with a semicolon. *)
Definition called (h : heap) (p : piece) : Prop := match p with Other _ => True | Call l => exists t r, l = t :: r /\ n_type (h (last r t)) = T_SEMI end.
Lemma fwds_decl : forall h diff b l, In l (fwds (List.map (mark h diff) b)) -> is_decl h l = true /\ In (Call l) b.
Proof.
  intros h diff b l H. unfold fwds in H. apply in_map_iff in H. destruct H as ([c l'] & El & H). cbn in El. subst l'. apply filter_In in H. destruct H as [H Hc]. cbn in Hc. subst c. apply in_map_iff in H. destruct H as (p & Ep & Ip). unfold mark in Ep. injection Ep as E1 E2. destruct p as [l'|l']; [discriminate|]. cbn in E2. subst l'. cbn [sorts] in E1. apply andb_true_iff in E1. split; [apply E1|exact Ip].
Qed.
Section Sort.
Variable qsort : forall A, (A -> A -> Z) -> list A -> list A.
Hypothesis QS : IncludeProps.qsort_ok qsort.
Definition raw_le (h : heap) (a b : list id) : Prop := (IncludeModel.token_strcmp (n_str (h (tag_of a))) (n_str (h (tag_of b))) <= 0)%Z.

Lemma sorted_mk : forall h l, StronglySorted (fun a b => (decl_cmp h a b <= 0)%Z) (List.map mk l) -> StronglySorted (raw_le h) l.
Proof.
  intros h. induction l as [|s l IH]; intros H; [constructor|]. cbn [List.map] in H. inversion H as [|? ? H1 H2]; subst. constructor; [apply IH, H1|]. rewrite Forall_forall in *. intros z Hz. apply (H2 (mk z)), in_map, Hz.
Qed.
Lemma leave_spec : forall E x done b tail, sound E x -> x_toks x = done ++ flat b ++ tail -> Forall (fun l => 2 <= length l) (fwds b) ->
  exists y out ss, leave qsort (state (fwds b)) x = Some (fwd_init, y) /\ sorted_run (raw_le (x_heap x)) b out /\ x_toks y = done ++ out ++ tail /\
    sound E y /\ Permutation (whole (x_heap y) (x_toks y)) (whole (x_heap x) (x_toks x)) /\ alike (x_heap x) (x_heap y) /\
    Permutation (fwds b) ss /\ trivia (x_heap x) (x_heap y) (hd 0 (concat (fwds b))) (hd 0 (concat ss)) (last (concat (fwds b)) 0) (last (concat ss) 0) /\
    (exists pre rest, b = pre ++ rest /\ fwds pre = [] /\ (rest = [] \/ exists s r, rest = (true, s) :: r) /\ out = flat pre ++ concat ss ++ others rest) /\
    x_cur y = x_cur x /\ x_next y = x_next x /\ x_bad y = x_bad x.
Proof.
  intros E x done b tail S ET L2. destruct (run_split b) as (pre & rest & Eb & FP & HR).
  assert (NT : NoDup (x_toks x)) by exact (whole_toks _ _ (so_nodup _ _ S)).
  assert (small : forall s, fwds b = s -> length s <= 1 -> leave qsort (state s) x = Some (fwd_init, x)).
  { intros [|s [|s' ss]] _ L; [reflexivity|reflexivity|cbn [length] in L; lia]. }
  destruct (le_lt_dec (length (fwds b)) 1) as [LE|GT].
  - assert (OUT : flat pre ++ concat (fwds b) ++ others rest = flat b).
    { subst b. rewrite fwds_app, FP, flat_app. cbn [app]. f_equal. destruct HR as [->|(s & r & ->)]; [reflexivity|]. rewrite fwds_app, FP in LE. cbn [app] in LE. change (fwds ((true, s) :: r)) with (s :: fwds r) in *. cbn [length] in LE. assert (FR : fwds r = []) by (destruct (fwds r); [reflexivity|cbn [length] in LE; lia]).
      rewrite FR. cbn [concat]. rewrite app_nil_r. change (others ((true, s) :: r)) with (others r). rewrite <- (flat_nofwd r FR). reflexivity. }
    exists x, (flat b), (fwds b). split; [apply small; [reflexivity|exact LE]|]. split.
    + exists pre, rest, (fwds b). repeat split; auto; [rewrite Eb, fwds_app, FP; reflexivity|]. destruct (fwds b) as [|s [|s' ss]]; [constructor|constructor; constructor|cbn [length] in LE; lia].
    + split; [exact ET|]. split; [exact S|]. split; [reflexivity|]. split; [apply alike_refl|]. split; [reflexivity|]. split; [|split; [exists pre, rest; auto|auto]]. intros t. rewrite !Nat.eqb_refl. auto.
  - set (segs := fwds b) in *. assert (NE : forall l, In l segs -> l <> []) by (intros l Il ->; rewrite Forall_forall in L2; apply L2 in Il; cbn [length] in Il; lia).
    destruct (QS decl (decl_cmp (x_heap x)) (decl_consistent _) (List.map mk segs)) as [QP QSS]. set (ds := qsort decl (decl_cmp (x_heap x)) (List.map mk segs)) in *.
    destruct (Permutation_map_inv _ _ (Permutation_sym QP)) as (ss & Eds & PS).
    destruct segs as [|s0 [|s1 segs']] eqn:Esegs; [cbn [length] in GT; lia|cbn [length] in GT; lia|]. set (sg := s0 :: s1 :: segs') in *. fold segs in Esegs.
    destruct ss as [|z0 ss']; [apply Permutation_length in PS; discriminate|]. set (ss := z0 :: ss') in *.
    assert (IN : forall l, In l ss -> In l sg) by (intros l Il; eapply Permutation_in; [symmetry; exact PS|exact Il]).
    assert (IT : forall l t, In l sg -> In t l -> In t (x_toks x)). { intros l t A B. rewrite ET. apply in_or_app. right. apply in_or_app. left. eapply fwds_in; [|exact B]. fold segs. rewrite Esegs. exact A. }
    set (zl := last ss s0). set (sl := last sg s0).
    assert (Izl : In zl ss) by (destruct (exists_last (l := ss) ltac:(discriminate)) as (q & z & Eq); unfold zl; rewrite Eq, last_last; apply in_or_app; right; left; reflexivity).
    assert (Isl : In sl sg) by (destruct (exists_last (l := sg) ltac:(discriminate)) as (q & z & Eq); unfold sl; rewrite Eq, last_last; apply in_or_app; right; left; reflexivity).
    assert (Nz0 : z0 <> []) by (apply NE, IN; left; reflexivity). assert (Ns0 : s0 <> []) by (apply NE; left; reflexivity).
    assert (Nzl : zl <> []) by (apply NE, IN, Izl). assert (Nsl : sl <> []) by (apply NE, Isl).
    destruct (heads_spec E x (hd 0 s0) (hd 0 z0) S) as (g1 & Eg1 & S1 & A1 & W1 & U1 & P1); [apply (IT s0); [left; reflexivity|apply hd_in, Ns0]|apply (IT z0); [apply IN; left; reflexivity|apply hd_in, Nz0]|].
    destruct (tails_spec E (set_heap g1 x) (last sl 0) (last zl 0) S1) as (S2 & A2 & W2 & P2 & U2); [apply (IT sl); [exact Isl|apply last_in, Nsl]|apply (IT zl); [apply IN, Izl|apply last_in, Nzl]|].
    cbn [x_heap x_toks set_heap] in *. set (g2 := if last sl 0 =? last zl 0 then g1 else move_suffixes_if (last sl 0) (last zl 0) T_SPACE g1) in *.
    (* the declarations *)
    assert (HR' : exists r, rest = (true, s0) :: r /\ fwds r = s1 :: segs').
    { assert (FE : fwds rest = sg) by (rewrite <- Esegs; unfold segs; rewrite Eb, fwds_app, FP; reflexivity). destruct HR as [->|(s & r & ->)]; [discriminate|]. change (fwds ((true, s) :: r)) with (s :: fwds r) in FE. inversion FE; subst. eauto. }
    destruct HR' as (r & Er & FR).
    destruct (exists_last Ns0) as (m0 & after & Em0).
    assert (FO : Forall2 spans ds ss).
    { rewrite Eds. assert (K : forall l, (forall s, In s l -> s <> []) -> Forall2 spans (List.map mk l) l) by (induction l as [|s l IH]; intros H; constructor; [apply mk_spans, H; left; reflexivity|apply IH; intros; apply H; right; assumption]). apply K. intros s Hs. apply NE, IN, Hs. }
    destruct (move_decls_spec ds ss s0 [] (r ++ [(false, tail)]) (done ++ flat pre) after m0 (set_heap g2 (set_heap g1 x)) FO) as (y & Ey & Ty & Ry & C1 & C2 & C3).
    { exact NT. }
    { cbn [x_toks set_heap]. rewrite ET, Eb, Er, !flat_app, <- !app_assoc. cbn. rewrite app_nil_r, <- !app_assoc. reflexivity. }
    { rewrite fwds_app. change (fwds [(false, tail)]) with (@nil (list id)). rewrite app_nil_r, FR. destruct s0 as [|? ?]; [congruence|]. symmetry. exact PS. }
    { rewrite app_nil_r. exact Em0. }
    { intros a Ea _. rewrite Forall_forall in L2. specialize (L2 s0 (or_introl eq_refl)). rewrite Ea in L2. cbn [length] in L2. lia. }
    assert (OT : others (r ++ [(false, tail)]) = others rest ++ tail) by (rewrite others_app, Er; cbn; rewrite app_nil_r; reflexivity).
    rewrite OT in Ty. cbn [app] in Ty.
    assert (RUN : sorted_run (raw_le (x_heap x)) b (flat pre ++ concat ss ++ others rest)).
    { exists pre, rest, ss. repeat split; auto; [rewrite Er; change (fwds ((true, s0) :: r)) with (s0 :: fwds r); rewrite FR; exact PS|].
      rewrite Eds in QSS. exact (sorted_mk _ _ QSS). }
    assert (PT : Permutation (x_toks y) (x_toks x)).
    { rewrite Ty, ET. rewrite <- (run_perm _ _ _ RUN). rewrite <- !app_assoc. reflexivity. }
    destruct (sound_moved E (set_heap g2 (set_heap g1 x)) y S2 Ry PT) as (S3 & W3 & A3). cbn [x_heap x_toks set_heap] in W3, A3.
    exists y, (flat pre ++ concat ss ++ others rest), ss. split.
    { unfold leave, state. cbn [f_decls f_after]. unfold sg at 1. cbn [List.map]. change (mk s0 :: mk s1 :: List.map mk segs') with (List.map mk sg). fold ds. rewrite Eds. unfold ss at 1. cbn [List.map hd_error]. change (mk z0 :: List.map mk ss') with (List.map mk ss). rewrite !last_map. cbn [d_beg d_semi mk]. fold zl sl. rewrite Eg1. fold g2.
      unfold sg. cbn beta iota. replace (last s0 0) with after by (rewrite Em0, last_last; reflexivity). rewrite <- Eds. change (set_heap g2 x) with (set_heap g2 (set_heap g1 x)). rewrite Ey. reflexivity. }
    split; [exact RUN|]. split; [rewrite Ty, <- !app_assoc; reflexivity|]. split; [exact S3|]. split; [rewrite W3, W2; exact W1|].
    split; [eapply alike_trans; [exact A1|eapply alike_trans; [exact A2|exact A3]]|]. split; [exact PS|]. split.
    + assert (Hs : hd 0 (concat sg) = hd 0 s0) by (unfold sg; cbn [concat]; destruct s0; [congruence|reflexivity]). assert (Hz : hd 0 (concat ss) = hd 0 z0) by (unfold ss; cbn [concat]; destruct z0; [congruence|reflexivity]).
      assert (LC : forall l, l <> [] -> (forall s, In s l -> s <> []) -> last (concat l) 0 = last (last l s0) 0).
      { intros l Nl H. destruct (exists_last Nl) as (q & z & ->). rewrite last_last, concat_app. cbn [concat]. rewrite app_nil_r. apply last_app_ne. apply H. apply in_or_app. right. left. reflexivity. }
      rewrite Hs, Hz, (LC sg ltac:(discriminate) NE), (LC ss ltac:(discriminate) ltac:(intros s Hs'; apply NE, IN, Hs')). fold zl sl.
      intros t. destruct (repos_fields _ _ _ (Ry t)) as (F1 & F2 & _). cbn [x_heap set_heap] in F1, F2. rewrite F1, F2, P2, U2, P1. split; [reflexivity|].
      assert (SPC : forall s, is_space g1 s = is_space (x_heap x) s) by (intros s; unfold is_space; destruct (A1 s) as (-> & _); reflexivity).
      rewrite !U1. rewrite (filter_ext (is_space g1) (is_space (x_heap x)) SPC), (filter_ext (fun s => negb (is_space g1 s)) (fun s => negb (is_space (x_heap x) s))) by (intros s; rewrite SPC; reflexivity). reflexivity.
    + split; [exists pre, rest; repeat split; auto; right; eauto|]. rewrite C1, C2, C3. auto.
Qed.


Lemma forward_step : forall diff h x done b l t r q, alike h (x_heap x) -> NoDup (x_toks x) -> l = t :: r -> x_toks x = done ++ l ++ q -> n_type (h (last r t)) = T_SEMI -> ends h (Call l) = false ->
  forward qsort diff t (last r t) (state (fwds (List.map (mark h diff) b))) x = Some (state (fwds (List.map (mark h diff) (b ++ [Call l]))), x).
Proof.
  intros diff h x done b l t r q AL ND El ET SE EN. subst l. unfold forward. rewrite (is_forward_spec r t done q x ND ET) by (destruct (AL (last r t)) as (-> & _); exact SE).
  rewrite (is_decl_alike h) by exact AL. cbn [ends] in EN. apply negb_false_iff in EN. rewrite EN. cbn [negb].
  rewrite map_app, fwds_app. change (List.map (mark h diff) [Call (t :: r)]) with [(sorts h diff (Call (t :: r)), t :: r)]. cbn [sorts]. rewrite EN. cbn [andb].
  assert (C : (if diff then is_covered (length (x_toks x)) x t (last r t) else Some true) = Some (negb diff || forallb (fun t => has_flag (n_flags (h t)) F_DIFF) (t :: r))).
  { destruct diff; [|reflexivity]. rewrite (covered_spec r t done q) by (auto; rewrite ET, !app_length; cbn [length]; lia). rewrite (covered_alike h) by exact AL. reflexivity. }
  rewrite C. destruct (negb diff || forallb _ (t :: r)) eqn:CV; cbn [negb].
  - rewrite (find_ident_spec r t done q x ND ET) by (rewrite (is_decl_alike h) by exact AL; exact EN). unfold state. cbn [f_decls f_after]. change (fwds [(true, t :: r)]) with [t :: r]. rewrite map_app. cbn [List.map]. f_equal. f_equal.
    assert (M : mk (t :: r) = Decl t (tag_of (t :: r)) (last r t)) by (unfold mk; cbn [hd]; rewrite last_cons_snoc; reflexivity). rewrite M. f_equal.
    destruct (fwds (List.map (mark h diff) b)); cbn [app]; [rewrite last_cons_snoc; reflexivity|reflexivity].
  - change (fwds [(false, t :: r)]) with (@nil (list id)). rewrite app_nil_r. reflexivity.
Qed.
Lemma flat_mark : forall h diff b, flat (List.map (mark h diff) b) = flat_map ptoks b.
Proof. intros h diff b. unfold flat. induction b as [|p b IH]; [reflexivity|]. cbn. rewrite IH. reflexivity. Qed.
Definition clean (h : heap) (ps : list piece) : Prop := forall l t, In (Call l) ps -> In t l -> n_type (h t) = T_IDENT -> ~ In NUL (n_str (h t)).
Lemma leave_step : forall E diff h x done b tail, alike h (x_heap x) -> sound E x -> x_toks x = done ++ flat_map ptoks b ++ tail -> clean h b ->
  exists y out, leave qsort (state (fwds (List.map (mark h diff) b))) x = Some (fwd_init, y) /\ sorted_run (tag_le h) (List.map (mark h diff) b) out /\ x_toks y = done ++ out ++ tail /\
    sound E y /\ Permutation (whole (x_heap y) (x_toks y)) (whole (x_heap x) (x_toks x)) /\ alike h (x_heap y) /\
    x_cur y = x_cur x /\ x_next y = x_next x /\ x_bad y = x_bad x.
Proof.
  intros E diff h x done b tail AL S ET CL.
  destruct (leave_spec E x done (List.map (mark h diff) b) tail S) as (y & out & ss & Ey & RUN & Ty & Sy & Wy & Ay & _ & _ & _ & C); [rewrite flat_mark; exact ET| |].
  { rewrite Forall_forall. intros l Il. apply fwds_decl in Il. destruct Il as [D _]. destruct (is_decl_inv _ _ D) as [(a & i & c & -> & _)|(a & i & c & d & e & -> & _)]; cbn [length]; lia. }
  exists y, out. split; [exact Ey|]. split; [|split; [exact Ty|split; [exact Sy|split; [exact Wy|split; [eapply alike_trans; eauto|exact C]]]]].
  apply (run_weaken _ _ _ _ RUN). intros l m Il Im R.
  assert (K : forall l, In l (fwds (List.map (mark h diff) b)) -> n_str (x_heap x (tag_of l)) = n_str (h (tag_of l)) /\ ~ In NUL (n_str (h (tag_of l)))).
  { intros k Ik. split; [apply AL|]. apply fwds_decl in Ik. destruct Ik as [D Ib]. destruct (is_decl_inv _ _ D) as [(a & i & c & -> & _ & T & _)|(a & i & c & d & e & -> & _ & _ & T & _)]; (eapply CL; [exact Ib| |exact T]); cbn; auto. }
  destruct (K l Il) as [K1 K2], (K m Im) as [K3 K4]. apply lex_text; [exact K2|exact K4|]. unfold raw_le in R. rewrite K1, K3 in R. exact R.
Qed.
Lemma forwards_spec : forall E diff h ps x done b, alike h (x_heap x) -> sound E x -> x_toks x = done ++ flat_map ptoks b ++ flat_map ptoks ps -> existsb (ends h) b = false ->
  Forall (called h) ps -> clean h (b ++ ps) ->
  exists y out, forwards qsort diff (calls ps) (state (fwds (List.map (mark h diff) b))) x = Some (fwd_init, y) /\ sorted_block h diff (b ++ ps) out /\ x_toks y = done ++ out /\
    sound E y /\ Permutation (whole (x_heap y) (x_toks y)) (whole (x_heap x) (x_toks x)) /\ alike h (x_heap y) /\
    x_cur y = x_cur x /\ x_next y = x_next x /\ x_bad y = x_bad x.
Proof.
  induction ps as [|p ps IH]; intros x done b AL S ET EN CA CL.
  - cbn [calls flat_map forwards] in *. rewrite app_nil_r in CL |- *. destruct (leave_step E diff h x done b [] AL S ET CL) as (y & out & Ey & RUN & Ty & R). exists y, out. split; [exact Ey|]. split; [apply SB_last; assumption|]. rewrite app_nil_r in Ty. auto.
  - inversion CA as [|? ? C1 C2]; subst. destruct p as [l|l].
    + change (calls (Other l :: ps)) with (calls ps). cbn [flat_map ptoks] in ET.
      assert (MK : fwds (List.map (mark h diff) (b ++ [Other l])) = fwds (List.map (mark h diff) b)) by (rewrite map_app, fwds_app; cbn; rewrite app_nil_r; reflexivity).
      destruct (IH x done (b ++ [Other l]) AL S) as (y & out & Ey & R).
      * rewrite ET, flat_map_app. cbn [flat_map ptoks]. rewrite app_nil_r, <- !app_assoc. reflexivity.
      * rewrite existsb_app, EN. reflexivity.
      * exact C2.
      * rewrite <- app_assoc. exact CL.
      * exists y, out. rewrite MK in Ey. rewrite <- app_assoc in R. auto.
    + destruct C1 as (t & r & El & SE). subst l. change (calls (Call (t :: r) :: ps)) with ((t, last r t) :: calls ps). cbn [forwards]. change (flat_map ptoks (Call (t :: r) :: ps)) with ((t :: r) ++ flat_map ptoks ps) in ET.
      assert (NT : NoDup (x_toks x)) by exact (whole_toks _ _ (so_nodup _ _ S)).
      destruct (ends h (Call (t :: r))) eqn:EP.
      * assert (FE : forward qsort diff t (last r t) (state (fwds (List.map (mark h diff) b))) x = leave qsort (state (fwds (List.map (mark h diff) b))) x).
        { unfold forward. rewrite (is_forward_spec r t (done ++ flat_map ptoks b) (flat_map ptoks ps) x NT) by (try (rewrite ET, <- app_assoc; reflexivity); destruct (AL (last r t)) as (-> & _); exact SE). rewrite (is_decl_alike h) by exact AL. cbn [ends] in EP. rewrite EP. reflexivity. }
        rewrite FE. destruct (leave_step E diff h x done b ((t :: r) ++ flat_map ptoks ps) AL S ET) as (y & out & Ey & RUN & Ty & Sy & Wy & Ay & D1 & D2 & D3).
        { intros l u Il. apply CL. apply in_or_app. left. exact Il. }
        rewrite Ey. destruct (IH y (done ++ out ++ (t :: r)) [] Ay Sy) as (z & out' & Ez & SBz & Tz & Sz & Wz & Az & D4 & D5 & D6).
        { rewrite Ty. cbn [flat_map app]. rewrite <- !app_assoc. reflexivity. } { reflexivity. } { exact C2. } { intros l u Il. apply CL. apply in_or_app. right. right. exact Il. }
        exists z, (out ++ (t :: r) ++ out'). split; [exact Ez|]. split; [apply (SB_more h diff b out (Call (t :: r)) ps out'); assumption|]. split; [rewrite Tz, <- !app_assoc; reflexivity|]. split; [exact Sz|]. split; [rewrite Wz; exact Wy|]. split; [exact Az|]. rewrite D4, D5, D6. auto.
      * rewrite (forward_step diff h x (done ++ flat_map ptoks b) b (t :: r) t r (flat_map ptoks ps) AL NT eq_refl) by (try assumption; rewrite ET, <- app_assoc; reflexivity).
        destruct (IH x done (b ++ [Call (t :: r)]) AL S) as (y & out & Ey & R).
        -- rewrite ET, flat_map_app. cbn [flat_map ptoks]. rewrite app_nil_r, <- !app_assoc. reflexivity.
        -- rewrite existsb_app, EN. cbn [existsb]. rewrite EP. reflexivity.
        -- exact C2.
        -- rewrite <- app_assoc. exact CL.
        -- exists y, out. rewrite <- app_assoc in R. auto.
Qed.
End Sort.

(** ** C32: forward declarations *)
(** Whatever the pass is called for in a block of declarations: each run of forward declarations is
    sorted by tag at the place of its first one, everything else stays in order, no comment or
    directive gets lost and nothing changes in the text of a token. *)
Theorem C32_forward : forall qsort diff E x ps, IncludeProps.qsort_ok qsort -> sound E x -> x_toks x = flat_map ptoks ps -> Forall (called (x_heap x)) ps -> clean (x_heap x) ps ->
  exists y, forwards qsort diff (calls ps) fwd_init x = Some (fwd_init, y) /\ sorted_block (x_heap x) diff ps (x_toks y) /\
    Permutation (x_toks y) (x_toks x) /\ Permutation (whole (x_heap y) (x_toks y)) (whole (x_heap x) (x_toks x)) /\ sound E y /\
    alike (x_heap x) (x_heap y) /\ x_cur y = x_cur x /\ x_next y = x_next x /\ x_bad y = x_bad x.
Proof.
  intros qsort diff E x ps QS S ET CA CL. destruct (forwards_spec qsort QS E diff (x_heap x) ps x [] [] (alike_refl _) S ET eq_refl CA CL) as (y & out & Ey & SB & Ty & Sy & Wy & Ay & C).
  cbn [app] in *. subst out. exists y. split; [exact Ey|]. split; [exact SB|]. split; [|auto].
  rewrite ET. clear -SB. set (out := x_toks y) in *. clearbody out. induction SB as [b out _ RUN|b out p ps out' _ RUN _ _ IH].
  - rewrite (run_perm _ _ _ RUN), flat_mark. reflexivity.
  - rewrite (run_perm _ _ _ RUN), flat_mark, flat_map_app, IH. reflexivity.
Qed.

Lemma run_calls : forall qsort diff x ps b, NoDup (x_toks x) -> x_toks x = flat_map ptoks b ++ flat_map ptoks ps -> Forall (called (x_heap x)) ps -> existsb (ends (x_heap x)) ps = false ->
  forwards qsort diff (calls ps) (state (fwds (List.map (mark (x_heap x) diff) b))) x = leave qsort (state (fwds (List.map (mark (x_heap x) diff) (b ++ ps)))) x.
Proof.
  intros qsort diff x. induction ps as [|p ps IH]; intros b ND ET CA EN; [cbn [calls flat_map forwards]; rewrite app_nil_r; reflexivity|].
  inversion CA as [|? ? C1 C2]; subst. cbn [existsb] in EN. apply orb_false_iff in EN. destruct EN as [E1 E2].
  assert (ET' : x_toks x = flat_map ptoks (b ++ [p]) ++ flat_map ptoks ps) by (rewrite ET, flat_map_app; cbn [flat_map]; rewrite app_nil_r, <- app_assoc; reflexivity).
  specialize (IH (b ++ [p]) ND ET' C2 E2). rewrite <- app_assoc in IH. cbn [app] in IH. rewrite <- IH. destruct p as [l|l].
  - change (calls (Other l :: ps)) with (calls ps). rewrite map_app, fwds_app. cbn. rewrite app_nil_r. reflexivity.
  - destruct C1 as (t & r & El & SE). subst l. change (calls (Call (t :: r) :: ps)) with ((t, last r t) :: calls ps). cbn [forwards].
    rewrite (forward_step qsort diff (x_heap x) x (flat_map ptoks b) b (t :: r) t r (flat_map ptoks ps) (alike_refl _) ND eq_refl) by assumption. reflexivity.
Qed.
(** Where comments, directives and blanks go in a single run: what precedes the first declaration
    still precedes the run, the blanks after the last one still follow it, anything else stays with
    its token. *)
Theorem C32_forward_trivia : forall qsort diff E x ps, IncludeProps.qsort_ok qsort -> sound E x -> x_toks x = flat_map ptoks ps -> Forall (called (x_heap x)) ps -> clean (x_heap x) ps ->
  existsb (ends (x_heap x)) ps = false ->
  exists y pre rest ss, forwards qsort diff (calls ps) fwd_init x = Some (fwd_init, y) /\
    List.map (mark (x_heap x) diff) ps = pre ++ rest /\ fwds pre = [] /\ (rest = [] \/ exists s r, rest = (true, s) :: r) /\
    Permutation (fwds rest) ss /\ x_toks y = flat pre ++ concat ss ++ others rest /\
    (let b0 := hd 0 (concat (fwds rest)) in let b1 := hd 0 (concat ss) in let e0 := last (concat (fwds rest)) 0 in let e1 := last (concat ss) 0 in let h := x_heap x in
     forall t, n_pre (x_heap y t) = (if b0 =? b1 then n_pre (h t) else if t =? b0 then [] else if t =? b1 then n_pre (h b0) ++ n_pre (h b1) else n_pre (h t)) /\
       n_suf (x_heap y t) = (if e0 =? e1 then n_suf (h t) else if t =? e0 then filter (fun s => negb (ttype_eqb (n_type (h s)) T_SPACE)) (n_suf (h e0))
         else if t =? e1 then n_suf (h e1) ++ filter (fun s => ttype_eqb (n_type (h s)) T_SPACE) (n_suf (h e0)) else n_suf (h t))).
Proof.
  intros qsort diff E x ps QS S ET CA CL EN. set (b := List.map (mark (x_heap x) diff) ps).
  destruct (leave_spec qsort QS E x [] b [] S) as (y & out & ss & Ey & _ & Ty & _ & _ & _ & P & TR & (pre & rest & Eb & F & HR & EO) & _).
  { unfold b. rewrite flat_mark, app_nil_r. exact ET. }
  { rewrite Forall_forall. intros l Il. apply fwds_decl in Il. destruct Il as [D _]. destruct (is_decl_inv _ _ D) as [(a & i & c & -> & _)|(a & i & c & d & e & -> & _)]; cbn [length]; lia. }
  assert (FR : fwds b = fwds rest) by (rewrite Eb, fwds_app, F; reflexivity). rewrite FR in *.
  exists y, pre, rest, ss. split.
  { pose proof (run_calls qsort diff x ps [] (whole_toks _ _ (so_nodup _ _ S)) ET CA EN) as RC. cbn [List.map app] in RC. change (state (fwds [])) with fwd_init in RC. rewrite RC. fold b. rewrite FR. exact Ey. }
  split; [exact Eb|]. split; [exact F|]. split; [exact HR|]. split; [exact P|]. split; [rewrite Ty, EO, app_nil_r; reflexivity|]. exact TR.
Qed.

(** ** Cases *)
Definition tks (ty : ttype) (s : string) : node := Node ty 0 1 1 (s2b s) 1 true [] [] None None None.
(** /* c */ struct b; typedef struct aa t; f(); struct a; int x; struct d; struct c; <EOF> with a blank
    line after struct a; and after struct c; *)
Definition ex_fwd : lex := stream
  ([set_pre [29] (tks T_STRUCT "struct"); tks T_IDENT "b"; tks T_SEMI ";";
    tks T_TYPEDEF "typedef"; tks T_STRUCT "struct"; tks T_IDENT "aa"; tks T_IDENT "t"; tks T_SEMI ";";
    tks T_IDENT "f"; tks T_LPAREN "("; tks T_RPAREN ")"; tks T_SEMI ";";
    tks T_STRUCT "struct"; tks T_IDENT "a"; set_suf [30] (tks T_SEMI ";");
    tks T_INT "int"; tks T_IDENT "x"; tks T_SEMI ";";
    tks T_STRUCT "struct"; tks T_IDENT "d"; tks T_SEMI ";";
    tks T_STRUCT "struct"; tks T_IDENT "c"; set_suf [31] (tks T_SEMI ";"); tks T_EOF ""] ++
   [tk0 T_NONE; tk0 T_NONE; tk0 T_NONE; tk0 T_NONE; tks T_COMMENT "/* c */"; tks T_SPACE " "; tks T_SPACE " "]) (seq 0 25).
Definition ex_pieces : list piece :=
  [Call [0;1;2]; Call [3;4;5;6;7]; Other [8;9;10;11]; Call [12;13;14]; Call [15;16;17]; Call [18;19;20]; Call [21;22;23]; Other [24]].
Example ex_fwd_sound : sound (fun _ => 0) ex_fwd.
Proof.
  constructor.
  - vm_compute. repeat constructor; simpl; intuition lia.
  - intros t d Ht Hd. change (x_toks ex_fwd) with (seq 0 25) in Ht. cbn in Ht. repeat (destruct Ht as [<-|Ht]; [cbn in Hd; intuition (subst; try reflexivity; discriminate)|]). destruct Ht.
  - intros t Ht. change (x_toks ex_fwd) with (seq 0 25) in Ht. cbn in Ht. repeat (destruct Ht as [<-|Ht]; [reflexivity|]). destruct Ht.
Qed.
Example ex_fwd_meets : x_toks ex_fwd = flat_map ptoks ex_pieces /\ Forall (called (x_heap ex_fwd)) ex_pieces /\ clean (x_heap ex_fwd) ex_pieces.
Proof.
  split; [reflexivity|]. split.
  - unfold ex_pieces. repeat (apply Forall_cons || apply Forall_nil); cbn; try exact I; eexists; eexists; (split; [reflexivity|reflexivity]).
  - intros l t Il It. unfold ex_pieces in Il. cbn in Il. repeat (destruct Il as [Il|Il]; [try discriminate Il; injection Il as <-; cbn in It; repeat (destruct It as [<-|It]; [cbn; try discriminate; intros _ K; repeat destruct K as [K|K]; try discriminate K; destruct K|]); destruct It|]). destruct Il.
Qed.
(** a, aa, b stay in front of f() and keep the comment first; int x; ends the run. *)
Example C32_ex : match forwards IncludeProps.isort false (calls ex_pieces) fwd_init ex_fwd with
  | Some (_, y) => x_toks y = [12;13;14; 3;4;5;6;7; 0;1;2; 8;9;10;11; 15;16;17; 21;22;23; 18;19;20; 24] /\
      n_pre (x_heap y 12) = [29] /\ n_pre (x_heap y 0) = [] /\ n_suf (x_heap y 2) = [30] /\ n_suf (x_heap y 14) = [] /\ n_suf (x_heap y 20) = [31] /\ n_suf (x_heap y 23) = []
  | None => False end.
Proof. vm_compute. auto 10. Qed.
(** A comment in front of the first declaration ends up in front of another one. *)
Theorem C32_comment_refuted : exists x ps l y, sound (fun _ => 0) x /\ x_toks x = flat_map ptoks ps /\ Forall (called (x_heap x)) ps /\ clean (x_heap x) ps /\ In (Call l) ps /\
  is_decl (x_heap x) l = true /\ forwards IncludeProps.isort false (calls ps) fwd_init x = Some (fwd_init, y) /\
  exists c, In c (n_pre (x_heap x (hd 0 l))) /\ n_type (x_heap x c) = T_COMMENT /\ ~ In c (n_pre (x_heap y (hd 0 l))).
Proof.
  destruct (forwards IncludeProps.isort false (calls ex_pieces) fwd_init ex_fwd) as [[f y]|] eqn:Ey; [|exfalso; revert Ey; vm_compute; discriminate].
  assert (H : f = fwd_init /\ n_pre (x_heap y 0) = []).
  { revert Ey. vm_compute. intros Ey. injection Ey as <- <-. split; reflexivity. }
  destruct H as [-> H]. exists ex_fwd, ex_pieces, [0;1;2], y. destruct ex_fwd_meets as (M1 & M2 & M3).
  split; [exact ex_fwd_sound|]. split; [exact M1|]. split; [exact M2|]. split; [exact M3|]. split; [left; reflexivity|]. split; [reflexivity|]. split; [exact Ey|].
  exists 29. split; [left; reflexivity|]. split; [reflexivity|]. cbn [hd]. rewrite H. intros [].
Qed.

Print Assumptions C32_forward.
Print Assumptions C32_forward_trivia.
Print Assumptions C32_comment_refuted.
