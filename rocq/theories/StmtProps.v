(** Braces around statements: C35. *)
From Coq Require Import Permutation.
From Verif Require Import Base TokenModel StreamModel StreamProofs TokListModel TokListProofs StreamProps TokListProps StaticModel StaticProps StmtModel.

(** ** Specification. *)
(** Formatted, the statement takes several lines: a newline between bytes that are no space. *)
Definition spans (s : bytes) : Prop := exists u v, s = u ++ NL :: v /\ (exists c, In c u /\ isspace c = false) /\ (exists c, In c v /\ isspace c = false).
Definition adjacent (x : lex) (a b : id) : Prop := exists p q, x_toks x = p ++ a :: b :: q.
(** Nothing between the braces; a single semicolon counts if there is just one statement. *)
Definition empty_stmt (x : lex) (n : nat) (st : stmt) : Prop :=
  if s_braces st then adjacent x (s_lbrace st) (s_rbrace st) \/ (n = 1 /\ exists t, adjacent x (s_lbrace st) t /\ adjacent x t (s_rbrace st) /\ tyof x t = T_SEMI)
  else adjacent x (s_lbrace st) (s_rbrace st) /\ tyof x (s_lbrace st) <> T_SEMI.
Definition needs (x : lex) (n : nat) (st : stmt) : Prop :=
  if s_ignore st then s_braces st = true
  else empty_stmt x n st \/ spans (s_out st) \/ (s_braces st = true /\ ~ unattached x (s_rbrace st)).
(** The statements that may be changed. *)
Definition unbraced (ss : list stmt) : list stmt := filter (fun st => negb (s_ignore st) && negb (s_braces st)) ss.
Definition braced (ss : list stmt) : list stmt := filter (fun st => negb (s_ignore st) && s_braces st) ss.
Definition braces (ss : list stmt) : list id := flat_map (fun st => [s_lbrace st; s_rbrace st]) ss.
Definition inner (x : lex) (t : id) : Prop := exists a b, x_toks x = a ++ t :: b /\ a <> [].
Record wf_stmts (x : lex) (ss : list stmt) : Prop := {
  ws_in : forall st, In st ss -> inner x (s_lbrace st) /\ inner x (s_rbrace st) /\ tyof x (s_lbrace st) <> T_EOF;
  ws_rb : forall st, In st ss -> s_braces st = true -> tyof x (s_rbrace st) <> T_EOF;
  ws_nodup : NoDup (braces (braced ss))
}.
(** The braces put in front of a token: { where a statement begins, } where one ended. *)
Definition put_before (ss : list stmt) (t : id) : list (ttype * bytes) :=
  flat_map (fun st => (if t =? s_lbrace st then [(T_LBRACE, s2b "{")] else []) ++ (if t =? s_rbrace st then [(T_RBRACE, s2b "}")] else [])) ss.
Definition token_text (x : lex) (t : id) : ttype * bytes := (tyof x t, n_str (x_heap x t)).
Record braces_added (ss : list stmt) (x y : lex) : Prop := {
  ba_text : map (token_text y) (x_toks y) = flat_map (fun t => put_before (unbraced ss) t ++ [token_text x t]) (x_toks x);
  ba_kept : filter (fun t => t <? x_next x) (x_toks y) = x_toks x;
  ba_same : forall i, i < x_next x -> token_text y i = token_text x i /\ n_pre (x_heap y i) = n_pre (x_heap x i);
  ba_whole : Permutation (filter (fun t => t <? x_next x) (whole (x_heap y) (x_toks y))) (whole (x_heap x) (x_toks x))
}.
Record braces_removed (ss : list stmt) (x y : lex) : Prop := {
  br_toks : x_toks y = filter (fun t => negb (existsb (Nat.eqb t) (braces (braced ss)))) (x_toks x);
  br_same : forall i, token_text y i = token_text x i;
  br_whole : Permutation (whole (x_heap x) (x_toks x)) (braces (braced ss) ++ whole (x_heap y) (x_toks y))
}.

(** ** Proofs. *)
Lemma ltrim_spec : forall s, exists l, s = l ++ ltrim s /\ forallb isspace l = true /\ (ltrim s = [] \/ exists c r, ltrim s = c :: r /\ isspace c = false).
Proof.
  induction s as [|c s (l & E & F & H)]; [exists []; auto|]. cbn [ltrim]. destruct (isspace c) eqn:Ec.
  - exists (c :: l). rewrite E at 1. split; [reflexivity|]. split; [cbn; rewrite Ec; exact F|exact H].
  - exists []. split; [reflexivity|]. split; [reflexivity|]. right. exists c, s. auto.
Qed.
Lemma strtrim_spec : forall s, exists l r, s = l ++ strtrim s ++ r /\ forallb isspace l = true /\ forallb isspace r = true /\
  (strtrim s = [] \/ (exists c m, strtrim s = c :: m /\ isspace c = false) /\ (exists c m, strtrim s = m ++ [c] /\ isspace c = false)).
Proof.
  intros s. unfold strtrim. destruct (ltrim_spec s) as (l & E & Fl & H). destruct (ltrim_spec (rev (ltrim s))) as (r & E2 & Fr & H2). set (t := ltrim s) in *. set (u := ltrim (rev t)) in *.
  assert (Et : t = rev u ++ rev r) by (rewrite <- rev_app_distr, <- E2, rev_involutive; reflexivity). exists l, (rev r). split; [rewrite E, Et at 1; reflexivity|]. split; [exact Fl|]. split; [rewrite forallb_forall in *; intros c Hc; apply Fr; apply in_rev; exact Hc|].
  destruct H2 as [H2|(c & m & H2 & Hc)]; [left; rewrite H2; reflexivity|]. right. split; [|exists c, (rev m); rewrite H2; auto].
  destruct H as [H|(d & k & H & Hd)]; [rewrite H in Et; symmetry in Et; apply app_eq_nil in Et; destruct Et as [Et _]; rewrite H2 in Et; cbn in Et; destruct (rev m); discriminate|].
  destruct (rev u) as [|e w] eqn:Eu; [rewrite H2 in Eu; cbn in Eu; destruct (rev m); discriminate|]. exists e, w. split; [reflexivity|]. rewrite H in Et. injection Et as -> _. exact Hd.
Qed.
Lemma NL_space : isspace NL = true. Proof. reflexivity. Qed.
Lemma oneline_spec : forall s, isoneline (strtrim s) = false <-> spans s.
Proof.
  intros s. destruct (strtrim_spec s) as (l & r & E & Fl & Fr & H). unfold isoneline. rewrite negb_false_iff, existsb_exists. rewrite forallb_forall in Fl, Fr. split.
  - intros (c & Hc & Ec). apply Ascii.eqb_eq in Ec. subst c. destruct (in_split _ _ Hc) as (u & v & Em). exists (l ++ u), (v ++ r). split; [rewrite E, Em, <- !app_assoc; reflexivity|].
    destruct H as [H|[(c & m & H1 & Hc1) (d & k & H2 & Hd)]]; [rewrite H in Em; destruct u; discriminate|]. split.
    + exists c. split; [|exact Hc1]. apply in_or_app. right. rewrite Em in H1. destruct u as [|e u]; [injection H1 as <- _; rewrite NL_space in Hc1; discriminate|injection H1 as <- _; left; reflexivity].
    + exists d. split; [|exact Hd]. apply in_or_app. left. rewrite Em in H2. destruct v as [|e v] using rev_ind; [apply app_inj_tail in H2; destruct H2 as [_ <-]; rewrite NL_space in Hd; discriminate|]. rewrite app_comm_cons, app_assoc in H2. apply app_inj_tail in H2. destruct H2 as [_ <-]. apply in_or_app. right. left. reflexivity.
  - intros (u & v & Es & (c & Hc & Ec) & (d & Hd & Ed)). exists NL. split; [|reflexivity]. assert (E' : u ++ NL :: v = l ++ strtrim s ++ r) by congruence. clear E. rename E' into E. clear H Es.
    assert (HL : exists u', u = l ++ u'). { clear -E Fl Hc Ec. revert u E Hc. induction l as [|a l IH]; intros u E Hc; [exists u; reflexivity|]. destruct u as [|b u]; [destruct Hc|]. cbn in E. injection E as -> E. destruct Hc as [->|Hc]; [rewrite (Fl c (or_introl eq_refl)) in Ec; discriminate|]. destruct (IH (fun x Hx => Fl x (or_intror Hx)) u E Hc) as (u' & ->). exists u'. reflexivity. }
    destruct HL as (u' & ->). rewrite <- app_assoc in E. apply app_inv_head in E.
    assert (HR : exists v', v = v' ++ r). { clear -E Fr Hd Ed. revert v u' E Hd. induction r as [|a r IH] using rev_ind; intros v u' E Hd; [exists v; rewrite app_nil_r; reflexivity|]. destruct v as [|b v _] using rev_ind; [destruct Hd|]. rewrite app_comm_cons, !app_assoc in E. apply app_inj_tail in E. destruct E as [E ->]. apply in_app_or in Hd. destruct Hd as [Hd|[->|[]]]; [|rewrite (Fr d ltac:(apply in_or_app; right; left; reflexivity)) in Ed; discriminate]. destruct (IH (fun x Hx => Fr x ltac:(apply in_or_app; left; exact Hx)) v u' E Hd) as (v' & ->). exists v'. rewrite app_assoc. reflexivity. }
    destruct HR as (v' & ->). rewrite app_comm_cons, app_assoc in E. apply app_inv_tail in E. rewrite <- E. apply in_or_app. right. left. reflexivity.
Qed.

Lemma next_adj : forall x a b, NoDup (x_toks x) -> next_of (x_toks x) a = Some b <-> adjacent x a b.
Proof.
  intros x a b ND. split; [intros H; apply next_inv in H; exact H|]. intros (p & q & E). rewrite E in ND. destruct (nodup_split _ _ _ ND) as [N _]. rewrite E, next_split by exact N. reflexivity.
Qed.
Lemma prev_adj : forall x a b, NoDup (x_toks x) -> prev_of (x_toks x) b = Some a <-> adjacent x a b.
Proof.
  intros x a b ND. unfold prev_of. split.
  - assert (G : forall l o, prev_from o l b = Some a -> (o = Some a /\ exists q, l = b :: q) \/ exists p q, l = p ++ a :: b :: q).
    { induction l as [|c l IH]; intros o H; cbn in H; [discriminate|]. destruct (Nat.eqb_spec c b); [left; split; [exact H|exists l; congruence]|]. right. destruct (IH _ H) as [[E (q & ->)]|(p & q & ->)]; [injection E as ->; exists [], q; reflexivity|exists (c :: p), q; reflexivity]. }
    intros H. destruct (G _ _ H) as [[E _]|E]; [discriminate|exact E].
  - intros (p & q & E). assert (E' : x_toks x = (p ++ [a]) ++ b :: q) by (rewrite E, <- app_assoc; reflexivity). rewrite E' in ND |- *. destruct (nodup_split _ _ _ ND) as [N _]. rewrite prev_from_split by exact N. rewrite rev_app_distr. reflexivity.
Qed.
Lemma opt_eqb_eq : forall a b, opt_eqb a b = true <-> a = b.
Proof. intros [a|] [b|]; cbn; split; try congruence; intros H; [apply Nat.eqb_eq in H|apply Nat.eqb_eq]; congruence. Qed.
Lemma inner_next : forall E x t, wfl E x -> inner x t -> tyof x t <> T_EOF -> exists n, next_of (x_toks x) t = Some n.
Proof.
  intros E x t W (a & b & Et & _) NE. assert (ND := whole_toks _ _ (wl_nodup _ _ W)). destruct (wl_eof _ _ W) as (body & e & Eb & Te & _). destruct b as [|n b].
  - rewrite Et in Eb. apply app_inj_tail in Eb. destruct Eb as [_ ->]. congruence.
  - exists n. apply next_adj; [exact ND|]. exists a, b. exact Et.
Qed.
Lemma inner_prev : forall x t, NoDup (x_toks x) -> inner x t -> exists p, prev_of (x_toks x) t = Some p.
Proof. intros x t ND (a & b & Et & NA). destruct a as [|p a _] using rev_ind; [congruence|]. exists p. apply prev_adj; [exact ND|]. exists a, b. rewrite Et, <- app_assoc. reflexivity. Qed.

Lemma empty_spec : forall E x n st, wfl E x -> inner x (s_lbrace st) -> inner x (s_rbrace st) -> tyof x (s_lbrace st) <> T_EOF ->
  exists b, is_stmt_empty x n st = Some b /\ (b = true <-> empty_stmt x n st).
Proof.
  intros E x n st W I1 I2 NE. assert (ND := whole_toks _ _ (wl_nodup _ _ W)). unfold is_stmt_empty, empty_stmt. destruct (inner_next E x _ W I1 NE) as (nx & En). destruct (inner_prev x _ ND I2) as (pv & Ep). rewrite En, Ep.
  assert (A1 : forall u, adjacent x (s_lbrace st) u <-> nx = u) by (intros u; rewrite <- (next_adj _ _ _ ND), En; split; congruence).
  assert (A2 : forall u, adjacent x u (s_rbrace st) <-> pv = u) by (intros u; rewrite <- (prev_adj _ _ _ ND), Ep; split; congruence).
  destruct (s_braces st).
  - destruct (opt_eqb (Some nx) (Some pv)) eqn:EQ.
    + eexists. split; [reflexivity|]. rewrite orb_true_iff, andb_true_iff, opt_eqb_eq, ttype_eqb_eq, Nat.eqb_eq. apply opt_eqb_eq in EQ. injection EQ as <-. rewrite A1. split.
      * intros [[T N]|H]; [right; split; [exact N|]; exists nx; rewrite A1, A2; auto|left; congruence].
      * intros [->|[N (t & H1 & H2 & T)]]; [right; reflexivity|left]. apply A1 in H1. subst. auto.
    + eexists. split; [reflexivity|]. rewrite opt_eqb_eq, A1. split; [intros H; left; congruence|]. intros [->|[N (t & H1 & H2 & T)]]; [reflexivity|]. apply A1 in H1. apply A2 in H2. subst. assert (K := proj2 (opt_eqb_eq (Some t) (Some t)) eq_refl). congruence.
  - eexists. split; [reflexivity|]. rewrite andb_true_iff, opt_eqb_eq, negb_true_iff, A1. split; intros [H1 H2]; (split; [congruence|]); apply ttype_eqb_neq; exact H2.
Qed.
Lemma need_spec : forall E x n ss, wfl E x -> (forall st, In st ss -> inner x (s_lbrace st) /\ inner x (s_rbrace st) /\ tyof x (s_lbrace st) <> T_EOF) ->
  exists b, need_braces x n ss = Some b /\ (b = true <-> exists st, In st ss /\ needs x n st).
Proof.
  intros E x n ss W. induction ss as [|st ss IH]; intros H; cbn [need_braces].
  - exists false. split; [reflexivity|]. split; [discriminate|]. intros (st & [] & _).
  - destruct (IH (fun s Hs => H s (or_intror Hs))) as (b & Eb & Sb). destruct (H st (or_introl eq_refl)) as (I1 & I2 & NE).
    assert (SKIP : ~ needs x n st -> exists b, need_braces x n ss = Some b /\ (b = true <-> exists s, In s (st :: ss) /\ needs x n s)).
    { intros NN. exists b. split; [exact Eb|]. rewrite Sb. split; intros (s & Hs & N); [exists s; split; [right; exact Hs|exact N]|]. destruct Hs as [<-|Hs]; [contradiction|]. exists s. auto. }
    assert (TAKE : needs x n st -> exists b, Some true = Some b /\ (b = true <-> exists s, In s (st :: ss) /\ needs x n s)) by (intros N; exists true; split; [reflexivity|]; split; [intros _; exists st; split; [left; reflexivity|exact N]|reflexivity]).
    unfold needs in SKIP, TAKE. destruct (s_ignore st) eqn:EI.
    + destruct (s_braces st) eqn:EB; [apply TAKE|apply SKIP]; congruence.
    + unfold stmt_need_braces. destruct (empty_spec E x n st W I1 I2 NE) as (e & Ee & Se). rewrite Ee. destruct e; [apply TAKE; left; apply Se; reflexivity|]. assert (NEM : ~ empty_stmt x n st) by (intros K; apply Se in K; discriminate).
      destruct (isoneline (strtrim (s_out st))) eqn:EO.
      * assert (NSP : ~ spans (s_out st)) by (intros K; apply oneline_spec in K; congruence). destruct (s_braces st) eqn:EB; cbn [andb]; [|apply SKIP; intros [K|[K|[K _]]]; congruence || contradiction]. destruct (is_moveable (x_heap x) (s_rbrace st)) eqn:EM; cbn [negb].
        -- apply moveable_spec in EM. apply SKIP. intros [K|[K|[_ K]]]; contradiction.
        -- apply TAKE. right. right. split; [reflexivity|]. intros K. apply moveable_spec in K. congruence.
      * apply TAKE. right. left. apply oneline_spec. exact EO.
Qed.

(** *** Removal *)
Lemma filter_del : forall (p : id -> bool) a tk b, NoDup (a ++ tk :: b) -> filter (fun t => negb (t =? tk) && p t) (a ++ tk :: b) = filter p (a ++ b).
Proof.
  intros p a tk b ND. destruct (nodup_split _ _ _ ND) as [N1 N2]. rewrite !filter_app. cbn [filter]. rewrite Nat.eqb_refl. cbn [negb andb].
  assert (G : forall l, ~ In tk l -> filter (fun t => negb (t =? tk) && p t) l = filter p l). { induction l as [|c l IH]; intros N; [reflexivity|]. cbn [filter]. destruct (Nat.eqb_spec c tk); [subst; destruct N; left; reflexivity|]. cbn [negb andb]. rewrite IH; [reflexivity|]. intros K. apply N. right. exact K. }
  rewrite !G by assumption. reflexivity.
Qed.
Lemma remove_list : forall E l x, wfl E x -> NoDup l -> (forall t, In t l -> In t (x_toks x) /\ tyof x t <> T_EOF) ->
  exists y, fold_left (fun o t => match o with Some x => remove t x | None => None end) l (Some x) = Some y /\ wfl E y /\
    x_toks y = filter (fun t => negb (existsb (Nat.eqb t) l)) (x_toks x) /\ (forall i, token_text y i = token_text x i) /\
    Permutation (whole (x_heap x) (x_toks x)) (l ++ whole (x_heap y) (x_toks y)).
Proof.
  intros E l. induction l as [|t l IH]; intros x W ND H; cbn [fold_left].
  - exists x. split; [reflexivity|]. split; [exact W|]. split; [|auto]. clear. cbn [existsb negb]. induction (x_toks x) as [|z r IHr]; [reflexivity|]. cbn [filter]. rewrite <- IHr. reflexivity.
  - inversion ND as [|? ? NI ND']; subst. destruct (H t (or_introl eq_refl)) as [It Nt]. destruct (in_split _ _ It) as (a & b & Et). destruct (wl_eof _ _ W) as (body & e & Eb & Te & _). assert (NDx := whole_toks _ _ (wl_nodup _ _ W)).
    destruct b as [|nx b]; [rewrite Et in Eb; apply app_inj_tail in Eb; destruct Eb as [_ ->]; congruence|].
    destruct (C13_remove E a t nx b x W Et) as (y & Er & R & PW & _ & _ & _ & Wy). rewrite Er.
    assert (TX : forall i, token_text y i = token_text x i) by (intros i; unfold token_text, tyof; destruct (rm_text _ _ _ _ _ _ _ R i) as (A & B & _); rewrite A, B; reflexivity).
    assert (Ety : x_toks y = a ++ nx :: b) by apply (rm_toks _ _ _ _ _ _ _ R).
    destruct (IH y Wy ND') as (z & Ez & Wz & Tz & TXz & PWz).
    { intros u Hu. destruct (H u (or_intror Hu)) as [Iu Nu]. split; [|unfold tyof; replace (n_type (x_heap y u)) with (n_type (x_heap x u)); [exact Nu|symmetry; apply (rm_text _ _ _ _ _ _ _ R u)]]. rewrite Ety. rewrite Et in Iu. apply in_app_or in Iu. apply in_or_app. destruct Iu as [?|[->|?]]; [left; assumption|contradiction|right; assumption]. }
    exists z. split; [exact Ez|]. split; [exact Wz|]. split; [|split; [intros i; rewrite TXz; apply TX|]].
    + rewrite Tz, Ety, Et. rewrite Et in NDx. rewrite <- (filter_del (fun u => negb (existsb (Nat.eqb u) l)) a t (nx :: b) NDx). apply filter_ext. intros u. cbn [existsb]. destruct (u =? t); reflexivity.
    + rewrite PW. cbn [app]. constructor. exact PWz.
Qed.
Lemma remove_fold : forall ss x, remove_braces ss x = fold_left (fun o t => match o with Some x => remove t x | None => None end) (braces (braced ss)) (Some x).
Proof.
  assert (N : forall l, fold_left (fun o t => match o with Some x => remove t x | None => None end) l None = None) by (induction l; [reflexivity|assumption]).
  induction ss as [|st ss IH]; intros x; [reflexivity|]. cbn [remove_braces braced filter]. destruct (s_ignore st); cbn [orb negb andb]; [apply IH|]. destruct (s_braces st); cbn [negb]; [|apply IH].
  cbn [braces flat_map app fold_left]. destruct (remove (s_lbrace st) x) as [x1|]; [|rewrite N; reflexivity]. destruct (remove (s_rbrace st) x1) as [x2|]; [|rewrite N; reflexivity]. apply IH.
Qed.
Lemma inner_in : forall x t, inner x t -> In t (x_toks x).
Proof. intros x t (a & b & -> & _). apply in_or_app. right. left. reflexivity. Qed.
Lemma removed_spec : forall E x ss, wfl E x -> wf_stmts x ss -> exists y, remove_braces ss x = Some y /\ braces_removed ss x y /\ wfl E y.
Proof.
  intros E x ss W WS. rewrite remove_fold. destruct (remove_list E (braces (braced ss)) x W (ws_nodup _ _ WS)) as (y & Ey & Wy & Ty & TX & PW).
  { intros t Ht. unfold braces, braced in Ht. apply in_flat_map in Ht. destruct Ht as (st & Hs & Ht). apply filter_In in Hs. destruct Hs as [Hs Hb]. apply andb_true_iff in Hb. destruct Hb as [_ Hb]. destruct (ws_in _ _ WS st Hs) as (I1 & I2 & NE). destruct Ht as [<-|[<-|[]]]; (split; [apply inner_in; assumption|]); [exact NE|exact (ws_rb _ _ WS st Hs Hb)]. }
  exists y. split; [exact Ey|]. split; [|exact Wy]. constructor; assumption.
Qed.

(** *** Addition *)
Lemma move_if_spec : forall ty src dst it k h, src <> dst -> NoDup (k ++ it) -> n_suf (h src) = k ++ it ->
  let g := move_suffixes_if_loop it src dst ty h in
  n_suf (g src) = k ++ filter (fun s => negb (ttype_eqb (n_type (h s)) ty)) it /\ n_suf (g dst) = n_suf (h dst) ++ filter (fun s => ttype_eqb (n_type (h s)) ty) it /\
  (forall i, i <> src -> i <> dst -> g i = h i) /\ (forall i, n_pre (g i) = n_pre (h i) /\ n_type (g i) = n_type (h i) /\ n_str (g i) = n_str (h i)).
Proof.
  intros ty src dst it. induction it as [|s it IH]; intros k h SD ND E; cbn zeta; cbn [move_suffixes_if_loop filter].
  - rewrite E, !app_nil_r. repeat split; reflexivity.
  - destruct (ttype_eqb (n_type (h s)) ty) eqn:T.
    + set (h1 := modify h src (fun n => set_suf (del s (n_suf n)) n)). set (h2 := modify h1 dst (fun n => set_suf (n_suf n ++ [s]) n)).
      assert (SM : forall i, n_pre (h2 i) = n_pre (h i) /\ n_type (h2 i) = n_type (h i) /\ n_str (h2 i) = n_str (h i)).
      { intros i. unfold h2, h1. destruct (Nat.eq_dec i dst) as [->|N1]; [rewrite mod_eq, mod_neq by auto; auto|]. rewrite mod_neq by exact N1. destruct (Nat.eq_dec i src) as [->|N2]; [rewrite mod_eq; auto|rewrite mod_neq by exact N2; auto]. }
      assert (Es : n_suf (h2 src) = k ++ it). { unfold h2, h1. rewrite mod_neq, mod_eq by auto. cbn [set_suf n_suf]. rewrite E. apply del_split. apply (nodup_split _ _ _ ND). }
      assert (Ed : n_suf (h2 dst) = n_suf (h dst) ++ [s]) by (unfold h2, h1; rewrite mod_eq, mod_neq by auto; reflexivity).
      assert (ND' : NoDup (k ++ it)) by (apply NoDup_remove_1 in ND; exact ND).
      destruct (IH k h2 SD ND' Es) as (A & B & C & D). cbn zeta in *.
      assert (FE : forall f g : ttype -> bool, (forall t, f t = g t) -> filter (fun s => f (n_type (h2 s))) it = filter (fun s => g (n_type (h s))) it) by (intros f g FG; apply filter_ext; intros i; destruct (SM i) as (_ & -> & _); apply FG).
      rewrite (FE (fun t => negb (ttype_eqb t ty)) (fun t => negb (ttype_eqb t ty)) ltac:(reflexivity)) in A. rewrite (FE (fun t => ttype_eqb t ty) (fun t => ttype_eqb t ty) ltac:(reflexivity)) in B.
      split; [exact A|]. split; [rewrite B, Ed, <- app_assoc; reflexivity|]. split.
      * intros i N1 N2. rewrite C by assumption. unfold h2, h1. rewrite !mod_neq by assumption. reflexivity.
      * intros i. destruct (D i) as (D1 & D2 & D3), (SM i) as (S1 & S2 & S3). rewrite D1, D2, D3. auto.
    + destruct (IH (k ++ [s]) h SD ltac:(rewrite <- app_assoc; exact ND) ltac:(rewrite <- app_assoc; exact E)) as (A & B & C & D). cbn zeta in *. split; [cbn [negb]; rewrite A, <- app_assoc; reflexivity|]. auto.
Qed.
Definition small (x : lex) : Prop := forall t, In t (whole (x_heap x) (x_toks x)) -> t < x_next x.
Lemma filter_perm : forall (f : id -> bool) l, Permutation (filter (fun t => negb (f t)) l ++ filter f l) l.
Proof.
  intros f. induction l as [|z l IH]; cbn [filter app]; [constructor|]. destruct (f z); cbn [negb app].
  - symmetry. etransitivity; [|apply Permutation_middle]. apply perm_skip. symmetry. exact IH.
  - apply perm_skip. exact IH.
Qed.
Lemma add_brace_spec : forall p pv t q def all x, NoDup (whole (x_heap x) (x_toks x)) -> small x -> x_toks x = p ++ pv :: t :: q ->
  exists y, add_brace t def all x = Some y /\ x_toks y = p ++ pv :: x_next x :: t :: q /\ x_next y = S (x_next x) /\
    token_text y (x_next x) = (n_type def, n_str def) /\
    (forall i, i <> x_next x -> token_text y i = token_text x i /\ n_pre (x_heap y i) = n_pre (x_heap x i)) /\
    Permutation (whole (x_heap y) (x_toks y)) (x_next x :: whole (x_heap x) (x_toks x)).
Proof.
  intros p pv t q def all x NDw SM Et. assert (ND := whole_toks _ _ NDw). assert (LT : forall u, In u (x_toks x) -> u < x_next x) by (intros u Hu; apply SM; apply whole_in; exact Hu).
  unfold add_brace. assert (EP : prev_of (x_toks x) t = Some pv) by (apply prev_adj; [exact ND|]; exists p, q; exact Et). rewrite EP.
  destruct (insert_after_spec pv def x p (t :: q) ND Et LT) as (y & Ey & Ty & Ny & Oy & TYy & STy & PRy & SFy & _). rewrite Ey. set (n := x_next x) in *.
  assert (Npv : pv <> n) by (assert (pv < n) by (apply LT; rewrite Et; apply in_or_app; right; left; reflexivity); lia).
  assert (NDS : NoDup (n_suf (x_heap x pv))). { assert (K := NDw). rewrite Et, whole_app, whole_cons in K. apply nodup_app_r in K. apply nodup_app_r in K. inversion K; subst. eapply nodup_app_l; eassumption. }
  assert (EX : exists g, (if all then do h <- move_suffixes pv n (x_heap y); Some (set_heap h y) else Some (set_heap (move_suffixes_if pv n T_SPACE (x_heap y)) y)) = Some (set_heap g y) /\
    (forall i, i <> pv -> i <> n -> g i = x_heap y i) /\ (forall i, n_pre (g i) = n_pre (x_heap y i) /\ n_type (g i) = n_type (x_heap y i) /\ n_str (g i) = n_str (x_heap y i)) /\ Permutation (n_suf (g pv) ++ n_suf (g n)) (n_suf (x_heap x pv))).
  { destruct all.
    - destruct (move_suffixes_spec pv n (x_heap y) Npv ltac:(rewrite Oy by exact Npv; exact NDS)) as (g & Eg & G1 & G2 & G3). exists g. rewrite Eg. split; [reflexivity|]. split; [exact G3|]. split.
      + intros i. destruct (Nat.eq_dec i pv) as [->|N1]; [rewrite G1; auto|]. destruct (Nat.eq_dec i n) as [->|N2]; [rewrite G2; auto|]. rewrite G3 by assumption. auto.
      + rewrite G1, G2. cbn [set_suf n_suf app]. rewrite SFy, Oy by exact Npv. apply Permutation_refl.
    - exists (move_suffixes_if pv n T_SPACE (x_heap y)). split; [reflexivity|]. unfold move_suffixes_if. assert (ES : n_suf (x_heap y pv) = n_suf (x_heap x pv)) by (rewrite Oy by exact Npv; reflexivity).
      destruct (move_if_spec T_SPACE pv n (n_suf (x_heap y pv)) [] (x_heap y) Npv ltac:(rewrite ES; exact NDS) eq_refl) as (A & B & C & D). cbn zeta in *. split; [exact C|]. split; [exact D|]. rewrite A, B, SFy, ES. cbn [app]. apply filter_perm. }
  destruct EX as (g & Eg & G1 & G2 & G3). rewrite Eg. exists (set_heap g y). split; [reflexivity|]. split; [exact Ty|]. split; [exact Ny|]. split; [|split].
  - unfold token_text, tyof. cbn [x_heap set_heap]. destruct (G2 n) as (_ & -> & ->). rewrite TYy, STy. reflexivity.
  - intros i Hi. unfold token_text, tyof. cbn [x_heap set_heap]. destruct (G2 i) as (-> & -> & ->). rewrite !Oy by exact Hi. auto.
  - cbn [x_heap x_toks set_heap]. rewrite Ty, Et. rewrite !whole_app, !(whole_cons _ pv), (whole_cons g n).
    assert (OT : forall l, ~ In pv l -> ~ In n l -> whole g l = whole (x_heap x) l). { intros l N1 N2. apply whole_ext. intros u Hu. assert (u <> pv) by (intros ->; contradiction). assert (u <> n) by (intros ->; contradiction). destruct (G2 u) as (-> & _). rewrite G1 by assumption. rewrite !Oy by assumption. auto. }
    rewrite Et in ND. destruct (nodup_split _ _ _ ND) as [N1 N2]. assert (N3 : ~ In n p) by (intros K; specialize (LT n ltac:(rewrite Et; apply in_or_app; left; exact K)); lia). assert (N4 : ~ In n (t :: q)) by (intros K; specialize (LT n ltac:(rewrite Et; apply in_or_app; right; right; exact K)); lia).
    rewrite (OT p N1 N3), (OT (t :: q) N2 N4). destruct (G2 pv) as (-> & _). destruct (G2 n) as (-> & _). rewrite PRy, Oy by exact Npv. cbn [app].
    set (A := whole (x_heap x) p). set (B := whole (x_heap x) (t :: q)). set (C := n_pre (x_heap x pv)).
    transitivity (n :: A ++ C ++ pv :: (n_suf (g pv) ++ n_suf (g n)) ++ B); [permc|]. rewrite G3. permc.
Qed.

(** What has been put in front of the tokens so far. *)
Record adding (x : lex) (put : id -> list (ttype * bytes)) (ins : id -> list id) (y : lex) : Prop := {
  ad_toks : x_toks y = flat_map (fun t => ins t ++ [t]) (x_toks x);
  ad_put : forall t, map (token_text y) (ins t) = put t;
  ad_new : forall t u, In u (ins t) -> x_next x <= u < x_next y;
  ad_next : x_next x <= x_next y;
  ad_nodup : NoDup (whole (x_heap y) (x_toks y));
  ad_small : small y;
  ad_same : forall i, i < x_next x -> token_text y i = token_text x i /\ n_pre (x_heap y i) = n_pre (x_heap x i);
  ad_whole : Permutation (filter (fun t => t <? x_next x) (whole (x_heap y) (x_toks y))) (whole (x_heap x) (x_toks x))
}.
Lemma flat_map_ext_in : forall (f g : id -> list id) l, (forall t, In t l -> f t = g t) -> flat_map f l = flat_map g l.
Proof. intros f g l H. induction l as [|a l IH]; [reflexivity|]. cbn. rewrite (H a (or_introl eq_refl)), IH; [reflexivity|]. intros t Ht. apply H. right. exact Ht. Qed.
Lemma adding_step : forall x put ins y t ty s all, NoDup (x_toks x) -> (forall u, In u (x_toks x) -> u < x_next x) -> adding x put ins y -> inner x t ->
  exists z, add_brace t (brace_token ty s) all y = Some z /\
    adding x (fun u => put u ++ if u =? t then [(ty, s2b s)] else []) (fun u => ins u ++ if u =? t then [x_next y] else []) z.
Proof.
  intros x put ins y t ty s all ND LT A (a & b & Et & NA). assert (ND' := ND). rewrite Et in ND'. destruct (nodup_split _ _ _ ND') as [N1 N2].
  set (F := fun u => ins u ++ [u]). assert (Ty : x_toks y = (flat_map F a ++ ins t) ++ t :: flat_map F b). { rewrite (ad_toks _ _ _ _ A), Et. fold F. rewrite flat_map_app. cbn [flat_map]. unfold F at 2. rewrite <- !app_assoc. reflexivity. }
  assert (NE : flat_map F a ++ ins t <> []). { destruct a as [|c a _] using rev_ind; [congruence|]. rewrite flat_map_app. cbn [flat_map]. unfold F at 2. rewrite app_nil_r, <- !app_assoc. intros K. apply app_eq_nil in K. destruct K as [_ K]. apply app_eq_nil in K. destruct K as [_ K]. discriminate. }
  destruct (exists_last NE) as (p & pv & Ep). rewrite Ep, <- app_assoc in Ty. cbn [app] in Ty.
  destruct (add_brace_spec p pv t (flat_map F b) (brace_token ty s) all y (ad_nodup _ _ _ _ A) (ad_small _ _ _ _ A) Ty) as (z & Ez & Tz & Nz & TXz & OTz & PWz). exists z. split; [exact Ez|]. set (n := x_next y) in *.
  assert (GEn : x_next x <= n) by apply (ad_next _ _ _ _ A).
  assert (Ttoks : x_toks z = flat_map (fun u => (ins u ++ if u =? t then [n] else []) ++ [u]) (x_toks x)).
  { rewrite Tz, Et, flat_map_app. cbn [flat_map]. rewrite Nat.eqb_refl. assert (Q : forall l, ~ In t l -> flat_map (fun u => (ins u ++ if u =? t then [n] else []) ++ [u]) l = flat_map F l). { intros l Hl. apply flat_map_ext_in. intros u Hu. unfold F. destruct (Nat.eqb_spec u t); [subst; contradiction|]. rewrite app_nil_r. reflexivity. }
    rewrite !Q by assumption. replace (p ++ pv :: n :: t :: flat_map F b) with ((p ++ [pv]) ++ n :: t :: flat_map F b) by (rewrite <- app_assoc; reflexivity). rewrite <- Ep, <- !app_assoc. reflexivity. }
  constructor.
  - exact Ttoks.
  - intros u. rewrite map_app, <- (ad_put _ _ _ _ A u). f_equal.
    + apply map_ext_in. intros v Hv. apply OTz. apply (ad_new _ _ _ _ A) in Hv. lia.
    + destruct (u =? t); [|reflexivity]. cbn [map]. rewrite TXz. reflexivity.
  - intros u v Hv. rewrite Nz. apply in_app_or in Hv. destruct Hv as [Hv|Hv]; [apply (ad_new _ _ _ _ A) in Hv; lia|]. destruct (u =? t); [destruct Hv as [<-|[]]; lia|destruct Hv].
  - lia.
  - eapply Permutation_NoDup; [symmetry; exact PWz|]. constructor; [|apply (ad_nodup _ _ _ _ A)]. intros K. apply (ad_small _ _ _ _ A) in K. lia.
  - intros u Hu. rewrite Nz. apply (Permutation_in _ PWz) in Hu. destruct Hu as [<-|Hu]; [lia|]. apply (ad_small _ _ _ _ A) in Hu. lia.
  - intros i Hi. destruct (OTz i ltac:(lia)) as [A1 A2]. destruct (ad_same _ _ _ _ A i Hi) as [B1 B2]. rewrite A1, A2. auto.
  - assert (FP : forall l l', Permutation l l' -> Permutation (filter (fun u => u <? x_next x) l) (filter (fun u => u <? x_next x) l')). { intros l l' P. induction P; cbn [filter]; [constructor|destruct (x0 <? x_next x); [constructor|]; assumption|destruct (x0 <? x_next x), (y0 <? x_next x); (apply perm_swap || apply Permutation_refl)|etransitivity; eassumption]. }
    rewrite (FP _ _ PWz). cbn [filter]. destruct (Nat.ltb_spec n (x_next x)); [lia|]. apply (ad_whole _ _ _ _ A).
Qed.
Lemma filter_all : forall (f : id -> bool) l, (forall t, In t l -> f t = true) -> filter f l = l.
Proof. intros f l H. induction l as [|a l IH]; [reflexivity|]. cbn. rewrite (H a (or_introl eq_refl)), IH; [reflexivity|]. intros t Ht. apply H. right. exact Ht. Qed.
Lemma filter_none : forall (f : id -> bool) l, (forall t, In t l -> f t = false) -> filter f l = [].
Proof. intros f l H. induction l as [|a l IH]; [reflexivity|]. cbn. rewrite (H a (or_introl eq_refl)), IH; [reflexivity|]. intros t Ht. apply H. right. exact Ht. Qed.
Lemma adding_ext : forall x put put' ins y, (forall t, put t = put' t) -> adding x put ins y -> adding x put' ins y.
Proof. intros x put put' ins y H [A B C D E F G W]. constructor; try assumption. intros t. rewrite <- H. apply B. Qed.
Lemma add_braces_adding : forall x, NoDup (x_toks x) -> (forall u, In u (x_toks x) -> u < x_next x) -> forall ss done ins y, adding x (put_before (unbraced done)) ins y ->
  (forall st, In st ss -> inner x (s_lbrace st) /\ inner x (s_rbrace st)) -> exists ins' z, add_braces ss y = Some z /\ adding x (put_before (unbraced (done ++ ss))) ins' z.
Proof.
  intros x ND LT. induction ss as [|st ss IH]; intros done ins y A H; cbn [add_braces].
  - exists ins, y. rewrite app_nil_r. auto.
  - replace (done ++ st :: ss) with ((done ++ [st]) ++ ss) by (rewrite <- app_assoc; reflexivity). assert (H' := fun s Hs => H s (or_intror Hs)). destruct (H st (or_introl eq_refl)) as [I1 I2].
    assert (EU : unbraced (done ++ [st]) = unbraced done ++ if s_ignore st || s_braces st then [] else [st]) by (unfold unbraced; rewrite filter_app; cbn [filter]; destruct (s_ignore st), (s_braces st); reflexivity).
    destruct (s_ignore st || s_braces st) eqn:E.
    + apply (IH (done ++ [st]) ins y); [|exact H']. rewrite EU, app_nil_r. exact A.
    + destruct (adding_step x _ _ y (s_lbrace st) T_LBRACE "{" true ND LT A I1) as (y1 & -> & A1). destruct (adding_step x _ _ y1 (s_rbrace st) T_RBRACE "}" false ND LT A1 I2) as (y2 & -> & A2). eapply (IH (done ++ [st])); [|exact H']. eapply adding_ext; [|exact A2]. intros t. rewrite EU. unfold put_before. rewrite flat_map_app. cbn [flat_map]. rewrite app_nil_r, <- app_assoc. reflexivity.
Qed.
Lemma added_spec : forall x ss, NoDup (whole (x_heap x) (x_toks x)) -> small x -> (forall st, In st ss -> inner x (s_lbrace st) /\ inner x (s_rbrace st)) ->
  exists y, add_braces ss x = Some y /\ braces_added ss x y.
Proof.
  intros x ss NDw SM H. assert (ND := whole_toks _ _ NDw). assert (LT : forall u, In u (x_toks x) -> u < x_next x) by (intros u Hu; apply SM; apply whole_in; exact Hu).
  assert (A0 : adding x (put_before (unbraced [])) (fun _ => []) x).
  { constructor; try assumption; try lia; auto; try (intros t u []). - clear. induction (x_toks x) as [|a l IH]; [reflexivity|]. cbn in *. rewrite <- IH. reflexivity. - rewrite filter_all; [apply Permutation_refl|]. intros t Ht. apply Nat.ltb_lt. apply SM. exact Ht. }
  destruct (add_braces_adding x ND LT ss [] _ x A0 H) as (ins & y & E & A). exists y. split; [exact E|]. cbn [app] in A. constructor.
  - rewrite (ad_toks _ _ _ _ A). assert (Q : forall l, (forall t, In t l -> t < x_next x) -> map (token_text y) (flat_map (fun t => ins t ++ [t]) l) = flat_map (fun t => put_before (unbraced ss) t ++ [token_text x t]) l); [|apply Q; exact LT].
    induction l as [|t l IH]; intros Hl; [reflexivity|]. cbn [flat_map]. rewrite !map_app, (ad_put _ _ _ _ A), IH by (intros u Hu; apply Hl; right; exact Hu). cbn [map]. destruct (ad_same _ _ _ _ A t (Hl t (or_introl eq_refl))) as [-> _]. reflexivity.
  - rewrite (ad_toks _ _ _ _ A). assert (Q : forall l, (forall t, In t l -> t < x_next x) -> filter (fun t => t <? x_next x) (flat_map (fun t => ins t ++ [t]) l) = l); [|apply Q; exact LT].
    induction l as [|t l IH]; intros Hl; [reflexivity|]. cbn [flat_map]. rewrite !filter_app, IH by (intros u Hu; apply Hl; right; exact Hu). rewrite filter_none by (intros u Hu; apply (ad_new _ _ _ _ A) in Hu; apply Nat.ltb_ge; lia). cbn [filter app]. destruct (Nat.ltb_spec t (x_next x)) as [_|K]; [reflexivity|]. specialize (Hl t (or_introl eq_refl)). lia.
  - apply (ad_same _ _ _ _ A).
  - apply (ad_whole _ _ _ _ A).
Qed.

(** If any statement needs braces they are put around all, else they are removed from all;
    statements to be ignored keep what they have.  No other token is touched. *)
Theorem C35_braces : forall E x ss, wfl E x -> small x -> wf_stmts x ss ->
  exists y, simple_stmt_leave ss x = Some y /\
    ((exists st, In st ss /\ needs x (length ss) st) -> braces_added ss x y) /\
    (~ (exists st, In st ss /\ needs x (length ss) st) -> braces_removed ss x y).
Proof.
  intros E x ss W SM WS. destruct ss as [|st0 ss0] eqn:Ess.
  - exists x. split; [reflexivity|]. split; [intros (st & [] & _)|]. intros _. constructor; try (intros; reflexivity).
    all: try apply Permutation_refl.
    all: symmetry; apply filter_all; reflexivity.
  - unfold simple_stmt_leave. rewrite <- Ess in *. destruct (need_spec E x (length ss) ss W (ws_in _ _ WS)) as (b & Eb & Sb). rewrite Eb. destruct b.
    + destruct (added_spec x ss (wl_nodup _ _ W) SM) as (y & Ey & A); [intros st Hs; destruct (ws_in _ _ WS st Hs) as (I1 & I2 & _); auto|]. exists y. split; [exact Ey|]. split; [auto|]. intros K. destruct K. apply Sb. reflexivity.
    + destruct (removed_spec E x ss W WS) as (y & Ey & R & _). exists y. split; [exact Ey|]. split; [|auto]. intros K. apply Sb in K. discriminate.
Qed.

(** A statement that takes several lines does not lose its braces. *)
Theorem C35_several_lines : forall E x ss y st, wfl E x -> small x -> wf_stmts x ss -> simple_stmt_leave ss x = Some y -> In st ss -> s_ignore st = false \/ s_braces st = true -> spans (s_out st) ->
  forall t, In t (x_toks x) -> In t (x_toks y) /\ token_text y t = token_text x t.
Proof.
  intros E x ss y st W SM WS Hy Hs Hi Hsp t Ht. destruct (C35_braces E x ss W SM WS) as (y' & Ey & A & _). rewrite Hy in Ey. injection Ey as <-. assert (Nd : needs x (length ss) st) by (unfold needs; destruct (s_ignore st); [destruct Hi; [discriminate|assumption]|right; left; exact Hsp]). assert (A' := A (ex_intro _ st (conj Hs Nd))).
  split; [|apply (ba_same _ _ _ A'); apply SM; apply whole_in; exact Ht]. assert (K := ba_kept _ _ _ A'). rewrite <- K in Ht. apply filter_In in Ht. apply Ht.
Qed.

(** Tokens next to preprocessor directives, and outside of the diff in diff mode, are not
    touched: no brace is removed there and none put before them. *)
Definition protected (diffparse : bool) (x : lex) (t : id) : Prop := (diffparse = true /\ flagged F_DIFF x t = false) \/ exists p, In p (n_pre (x_heap x t)) /\ has_flag (n_flags (x_heap x p)) F_CPP = true.
Inductive built (d : bool) (x : lex) : list stmt -> Prop :=
  | b_nil : built d x []
  | b_enter : forall ss b o l r, built d x ss -> built d x (stmt_enter d x b o l r ss).
Lemma protected_fixed : forall d x t, protected d x t -> is_brace_moveable d x t = false.
Proof.
  intros d x t [[-> H]|(p & I & F)]; unfold is_brace_moveable; [rewrite H; reflexivity|]. destruct (d && negb (flagged F_DIFF x t)); [reflexivity|]. apply negb_false_iff. unfold has_cpp. apply existsb_exists. exists p. auto.
Qed.
Lemma built_ignore : forall d x ss, built d x ss -> forall st, In st ss -> protected d x (s_lbrace st) \/ protected d x (s_rbrace st) -> s_ignore st = true.
Proof.
  intros d x ss B. induction B as [|ss b o l r B IH]; intros st Hs Hp; [destruct Hs|]. unfold stmt_enter in Hs. destruct (SIMPLE_STMT_MAX <=? length ss); [auto|]. apply in_app_or in Hs. destruct Hs as [Hs|[<-|[]]]; [auto|]. cbn in *. destruct Hp as [Hp|Hp]; rewrite (protected_fixed _ _ _ Hp); [reflexivity|apply orb_true_r].
Qed.
Theorem C35_protected : forall E d x ss y t, wfl E x -> small x -> wf_stmts x ss -> built d x ss -> simple_stmt_leave ss x = Some y -> protected d x t ->
  (In t (x_toks x) -> In t (x_toks y) /\ token_text y t = token_text x t) /\ put_before (unbraced ss) t = [].
Proof.
  intros E d x ss y t W SM WS B Hy P. destruct (C35_braces E x ss W SM WS) as (y' & Ey & A & R). rewrite Hy in Ey. injection Ey as <-. split.
  - intros Ht. destruct (need_spec E x (length ss) ss W (ws_in _ _ WS)) as (b & _ & Hb). destruct b.
    + specialize (A (proj1 Hb eq_refl)). split; [|apply (ba_same _ _ _ A); apply SM; apply whole_in; exact Ht]. assert (K := ba_kept _ _ _ A). rewrite <- K in Ht. apply filter_In in Ht. apply Ht.
    + assert (NN : ~ exists st, In st ss /\ needs x (length ss) st) by (intros K; apply Hb in K; discriminate). specialize (R NN). split; [|apply (br_same _ _ _ R)]. rewrite (br_toks _ _ _ R). apply filter_In. split; [exact Ht|]. apply negb_true_iff. destruct (existsb _ _) eqn:Q; [exfalso|reflexivity]. apply existsb_exists in Q. destruct Q as (u & U1 & U2). apply Nat.eqb_eq in U2. subst u. unfold braces, braced in U1. apply in_flat_map in U1. destruct U1 as (st & S1 & S2). apply filter_In in S1. destruct S1 as [S1 S3]. assert (I : s_ignore st = true) by (apply (built_ignore d x ss B st S1); destruct S2 as [->|[->|[]]]; auto). rewrite I in S3. discriminate.
  - unfold put_before. assert (G : forall st, In st (unbraced ss) -> t <> s_lbrace st /\ t <> s_rbrace st). { intros st S1. unfold unbraced in S1. apply filter_In in S1. destruct S1 as [S1 S3]. split; intros Q; assert (I : s_ignore st = true) by (apply (built_ignore d x ss B st S1); subst t; auto); rewrite I in S3; discriminate. }
    clear - G. induction (unbraced ss) as [|st l IH]; [reflexivity|]. cbn [flat_map]. destruct (G st (or_introl eq_refl)) as [G1 G2]. apply Nat.eqb_neq in G1. apply Nat.eqb_neq in G2. rewrite G1, G2. cbn [app]. apply IH. intros st' H. apply G. right. exact H.
Qed.

(** A statement without braces that cannot be changed (next to a preprocessor directive, or
    not in the diff) is not considered: the others lose their braces even though it takes
    several lines. *)
Definition ex_if : lex := ex_decl [(T_IF, "if"); (T_LPAREN, "("); (T_IDENT, "a"); (T_RPAREN, ")"); (T_LBRACE, "{"); (T_IDENT, "b"); (T_SEMI, ";"); (T_RBRACE, "}"); (T_ELSE, "else"); (T_IDENT, "c"); (T_SEMI, ";"); (T_IDENT, "d"); (T_EOF, "")]%string.
Definition ex_stmts (out1 out2 : bytes) (ig : bool) : list stmt := [Stmt out1 4 7 true false; Stmt out2 9 11 false ig].
Lemma ex_decl_wfl : forall l, (exists b, map fst l = b ++ [T_EOF] /\ forallb (fun t => negb (ttype_eqb t T_EOF)) b = true) -> wfl (fun _ => 0) (ex_decl l) /\ small (ex_decl l).
Proof.
  intros l (b & Eb & Fb). assert (PS : forall i, n_pre (x_heap (ex_decl l) i) = [] /\ n_suf (x_heap (ex_decl l) i) = [] /\ n_refs (x_heap (ex_decl l) i) = 1).
  { intros i. unfold ex_decl, stream, of_list. cbn [x_heap]. destruct (nth_in_or_default i (map (fun '(ty, s) => Node ty 0 1 1 (s2b s) 1 true [] [] None None None) l) (tk0 T_NONE)) as [H|H]; [|rewrite H; auto]. apply in_map_iff in H. destruct H as ([ty s] & <- & _). auto. }
  assert (WH : forall k, whole (x_heap (ex_decl l)) k = k). { induction k as [|a k IH]; [reflexivity|]. rewrite whole_cons, IH. destruct (PS a) as (-> & -> & _). reflexivity. }
  assert (TY : forall i, i < length l -> tyof (ex_decl l) i = nth i (map fst l) T_NONE).
  { intros i Hi. unfold ex_decl, stream, tyof, of_list. cbn [x_heap]. destruct (nth_error l i) as [[ty s]|] eqn:En; [|apply nth_error_None in En; lia]. rewrite (nth_error_nth (map (fun '(ty, s) => Node ty 0 1 1 (s2b s) 1 true [] [] None None None) l) i (tk0 T_NONE) (map_nth_error _ _ _ En)). rewrite (nth_error_nth (map fst l) i T_NONE (map_nth_error _ _ _ En)). reflexivity. }
  assert (Lb : length l = S (length b)) by (rewrite <- (map_length fst l), Eb, app_length; cbn; lia).
  split; [constructor|].
  - rewrite WH. apply seq_NoDup.
  - exists (seq 0 (length b)), (length b). split; [cbn [ex_decl stream x_toks]; rewrite Lb, seq_S; reflexivity|]. split.
    + rewrite TY by lia. rewrite Eb, app_nth2, Nat.sub_diag by lia. reflexivity.
    + apply Forall_forall. intros i Hi. apply in_seq in Hi. rewrite TY by lia. rewrite Eb, app_nth1 by lia. rewrite forallb_forall in Fb. intros K. assert (K2 := Fb (nth i b T_NONE) ltac:(apply nth_In; lia)). rewrite K in K2. discriminate.
  - intros t d _ Hd. destruct (PS t) as (E & _). rewrite E in Hd. destruct Hd.
  - intros t _. destruct (PS t) as (E & _ & ->). rewrite E. reflexivity.
  - intros t Ht. rewrite WH in Ht. cbn [ex_decl stream x_toks x_next] in *. rewrite map_length. apply in_seq in Ht. lia.
Qed.
Lemma ex_if_wf : wfl (fun _ => 0) ex_if /\ small ex_if.
Proof. apply ex_decl_wfl. exists [T_IF; T_LPAREN; T_IDENT; T_RPAREN; T_LBRACE; T_IDENT; T_SEMI; T_RBRACE; T_ELSE; T_IDENT; T_SEMI; T_IDENT]. split; reflexivity. Qed.
Lemma ex_stmts_wf : forall a b ig, wf_stmts ex_if (ex_stmts a b ig).
Proof.
  intros a b ig. constructor.
  - assert (I : forall t, In t [4;7;9;11] -> inner ex_if t). { intros t [<-|[<-|[<-|[<-|[]]]]]; [exists [0;1;2;3], [5;6;7;8;9;10;11;12]|exists [0;1;2;3;4;5;6], [8;9;10;11;12]|exists [0;1;2;3;4;5;6;7;8], [10;11;12]|exists [0;1;2;3;4;5;6;7;8;9;10], [12]]; (split; [reflexivity|discriminate]). }
    intros st [<-|[<-|[]]]; cbn [s_lbrace s_rbrace]; (split; [apply I; cbn; tauto|split; [apply I; cbn; tauto|vm_compute; discriminate]]).
  - intros st [<-|[<-|[]]] H; [vm_compute; discriminate|discriminate].
  - destruct ig; cbn; repeat constructor; cbn; intuition lia.
Qed.
Theorem C35_ignored_refuted : exists E x ss y st, wfl E x /\ small x /\ wf_stmts x ss /\ simple_stmt_leave ss x = Some y /\ In st ss /\ spans (s_out st) /\ x_toks y <> x_toks x /\ braces_removed ss x y.
Proof.
  destruct ex_if_wf as [W S]. assert (WS := ex_stmts_wf (s2b "b;") (s2b "c +" ++ NL :: s2b "d;") true). destruct (C35_braces _ _ _ W S WS) as (y & Ey & _ & R).
  assert (NN : ~ exists st, In st (ex_stmts (s2b "b;") (s2b "c +" ++ NL :: s2b "d;") true) /\ needs ex_if 2 st).
  { destruct (need_spec _ ex_if 2 _ W (ws_in _ _ WS)) as (bb & Eb & Sb). vm_compute in Eb. injection Eb as <-. intros K. apply Sb in K. discriminate. }
  exists (fun _ => 0), ex_if, (ex_stmts (s2b "b;") (s2b "c +" ++ NL :: s2b "d;") true), y, (Stmt (s2b "c +" ++ NL :: s2b "d;") 9 11 false true). split; [exact W|]. split; [exact S|]. split; [exact WS|]. split; [exact Ey|]. split; [right; left; reflexivity|]. split; [|split; [|exact (R NN)]].
  - exists (s2b "c +"), (s2b "d;"). split; [reflexivity|]. split; [exists "c"%char|exists "d"%char]; (split; [left; reflexivity|reflexivity]).
  - rewrite (br_toks _ _ _ (R NN)). vm_compute. discriminate.
Qed.
(** Only the first 32 statements are considered. *)
Theorem C35_max_refuted : exists ss out, length ss = SIMPLE_STMT_MAX /\ spans out /\ forall d x lb rb, stmt_enter d x true out lb rb ss = ss.
Proof. exists (repeat (Stmt [] 0 0 false false) 32), (s2b "a" ++ NL :: s2b "b"). split; [reflexivity|]. split; [|reflexivity]. exists (s2b "a"), (s2b "b"). split; [reflexivity|]. split; [exists "a"%char|exists "b"%char]; (split; [left; reflexivity|reflexivity]). Qed.

(** ** Examples *)
Example ex_built : forall d, built d ex_if (stmt_enter d ex_if true (s2b "b;") 4 7 []).
Proof. intros d. constructor. constructor. Qed.
Example ex_protected : protected true ex_if 4 /\ In 4 (x_toks ex_if).
Proof. split; [left; split; reflexivity|vm_compute; tauto]. Qed.
Definition texts (o : option lex) : list bytes := match o with Some y => map (fun t => n_str (x_heap y t)) (x_toks y) | None => [] end.
Example ex_added : texts (simple_stmt_leave (ex_stmts (s2b "b;") (s2b "c +" ++ NL :: s2b "d;") false) ex_if) = map s2b ["if"; "("; "a"; ")"; "{"; "b"; ";"; "}"; "else"; "{"; "c"; ";"; "}"; "d"; ""]%string.
Proof. vm_compute. reflexivity. Qed.
Example ex_removed : texts (simple_stmt_leave (ex_stmts (s2b "b;") (s2b "c;") false) ex_if) = map s2b ["if"; "("; "a"; ")"; "b"; ";"; "else"; "c"; ";"; "d"; ""]%string.
Proof. vm_compute. reflexivity. Qed.

Print Assumptions C35_braces.
Print Assumptions C35_several_lines.
Print Assumptions C35_protected.
Print Assumptions C35_ignored_refuted.
Print Assumptions C35_max_refuted.
