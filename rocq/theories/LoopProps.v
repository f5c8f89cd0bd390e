(** Statements spelled out, continue in empty loops and break in an empty default: C66. *)
From Verif Require Import Base TokenModel StreamModel StreamProofs TokListModel TokListProofs StreamProps TokListProps StaticModel StaticProps ProtoProps LoopModel.

(** ** Specification. *)
(** All tokens were allocated. *)
Definition small (x : lex) : Prop := forall t, In t (x_toks x) -> t < x_next x.
(** A new token, nothing attached to it. *)
Definition new_token (x y : lex) (w : ttype * string) (t : id) : Prop :=
  x_next x <= t < x_next y /\ flagged F_BRANCH y t = false /\ tyof y t = fst w /\ n_str (x_heap y t) = s2b (snd w) /\ n_pre (x_heap y t) = [] /\ n_suf (x_heap y t) = [].
(** New tokens between [p] and [q]; all others are as before. *)
Definition spelled (x y : lex) (p : list id) (ws : list (ttype * string)) (q : list id) : Prop :=
  x_toks x = p ++ q /\ (exists ts, x_toks y = p ++ ts ++ q /\ NoDup ts /\ Forall2 (new_token x y) ws ts) /\
  (forall i, i < x_next x -> x_heap y i = x_heap x i) /\ x_cur y = x_cur x.
(** The body of the loop that comes next is empty: the tokens in front of what is missing, what
    is missing and the tokens behind. *)
Definition w_continue : ttype * string := (T_CONTINUE, "continue"%string).
Definition w_break : ttype * string := (T_BREAK, "break"%string).
Definition w_semi : ttype * string := (T_SEMI, ";"%string).
Inductive empty_body (x : lex) : list id -> list (ttype * string) -> list id -> Prop :=
| eb_semi : forall a c q t, x_cur x = Some c -> x_toks x = a ++ c :: q -> sees x (Some c) t -> tyof x t = T_SEMI -> empty_body x (a ++ [c]) [w_continue] q
| eb_braces : forall a l r b, pair_of x T_LBRACE T_RBRACE l r -> x_toks x = a ++ l :: r :: b -> unattached x l -> unattached x r ->
    empty_body x (a ++ [l]) [w_continue; w_semi] (r :: b)
| eb_braces_semi : forall a l s r b, pair_of x T_LBRACE T_RBRACE l r -> x_toks x = a ++ l :: s :: r :: b -> tyof x s = T_SEMI -> unattached x l -> unattached x s -> unattached x r ->
    empty_body x (a ++ [l]) [w_continue] (s :: r :: b).
(** default: ; *)
Definition empty_default (x : lex) (kw colon : id) : Prop :=
  tyof x kw = T_DEFAULT /\ exists d semi, saw x (prev_of (x_toks x) kw) [d; colon; semi] /\ tyof x d = T_DEFAULT /\ tyof x colon = T_COLON /\ tyof x semi = T_SEMI.

(** ** Proofs. *)
Lemma inserted1 : forall x a c q def w, NoDup (x_toks x) -> small x -> x_toks x = a ++ c :: q -> n_type def = fst w -> n_str def = s2b (snd w) -> n_flags def = 0%N ->
  exists y, insert_after c def x = Some (x_next x, y) /\ x_next y = S (x_next x) /\ x_toks y = a ++ c :: x_next x :: q /\ spelled x y (a ++ [c]) [w] q /\ flagged F_BRANCH y (x_next x) = false /\ n_lno (x_heap y (x_next x)) = n_lno (x_heap x c).
Proof.
  intros x a c q def w ND SM Et Ht Hs Hf. destruct (insert_after_spec c def x a q ND Et SM) as (y & H1 & H2 & H3 & H4 & H5 & H6 & H7 & H8 & _ & H10 & _ & H12 & H13 & _).
  assert (HB : flagged F_BRANCH y (x_next x) = false).
  { unfold flagged, has_flag. rewrite H12, Hf. change (N.lor 0 (N.land (n_flags (x_heap x c)) F_DIFF)) with (N.land (n_flags (x_heap x c)) F_DIFF). rewrite <- N.land_assoc. change (N.land F_DIFF F_BRANCH) with 0%N. rewrite N.land_0_r. reflexivity. }
  exists y. split; [exact H1|]. split; [exact H3|]. split; [exact H2|]. split; [|split; [exact HB|exact H10]].
  split; [rewrite <- app_assoc; exact Et|]. split; [|split; [intros i Hi; apply H4; lia|exact H13]]. exists [x_next x]. split; [rewrite <- app_assoc; exact H2|]. split; [repeat constructor; intros []|]. constructor; [|constructor]. split; [lia|]. split; [exact HB|]. split; [unfold tyof; congruence|]. split; [congruence|]. auto.
Qed.
Lemma cur_split : forall x, wfs x -> forall c, x_cur x = Some c -> exists a q, x_toks x = a ++ c :: q.
Proof. intros x (_ & _ & H & _) c E. apply in_split. apply H. exact E. Qed.
Lemma saw_in : forall x, wfs x -> forall ts c, here x c -> saw x c ts -> Forall (fun t => In t (x_toks x)) ts.
Proof.
  intros x W. induction ts as [|t ts IH]; intros c Hc S; [constructor|]. apply saw_inv in S. destruct S as [S1 S2].
  destruct (pop_peek x W 0 c Hc) as (t' & _ & S' & It & _). rewrite (sees_fun x W c t t' S1 S') in *. constructor; [exact It|]. apply (IH (Some t')); [|exact S2]. intros u K. injection K as <-. exact It.
Qed.
Lemma pair_in : forall x l r, wfs x -> pair_of x T_LBRACE T_RBRACE l r -> In l (x_toks x) /\ In r (x_toks x).
Proof.
  intros x l r W (ts & S & Hl & Hr & _). assert (F := saw_in x W ts (x_cur x) (here_cur x W) S). rewrite Forall_forall in F. split; apply F.
  - destruct ts; [discriminate|]. injection Hl as ->. left. reflexivity.
  - apply in_rev. destruct (rev ts); [discriminate|]. injection Hr as ->. left. reflexivity.
Qed.
Lemma pair_close : forall x l r, wfs x -> pair_of x T_LBRACE T_RBRACE l r -> tyof x l = T_LBRACE /\ l <> r /\ (tyof x r = T_LBRACE \/ tyof x r = T_RBRACE).
Proof.
  intros x l r W (ts & S & Hl & Hr & Tl & NE & B & P). split; [exact Tl|]. destruct ts as [|l' ts]; [discriminate|]. injection Hl as ->.
  destruct ts as [|r' us _] using rev_ind.
  - exfalso. unfold balance in B. cbn [filter] in B. rewrite Tl in B. vm_compute in B. discriminate.
  - change (l :: us ++ [r']) with ((l :: us) ++ [r']) in *. rewrite rev_app_distr in Hr. injection Hr as ->. assert (K : balance x T_LBRACE T_RBRACE (l :: us) <> 0%Z) by (apply (P _ [r] eq_refl); discriminate).
    assert (Q : balance x T_LBRACE T_RBRACE ((l :: us) ++ [r]) = (balance x T_LBRACE T_RBRACE (l :: us) + balance x T_LBRACE T_RBRACE [r])%Z). { unfold balance. rewrite !filter_app, !app_length. lia. }
    assert (D : tyof x r = T_LBRACE \/ tyof x r = T_RBRACE). { destruct (ttype_eqb (tyof x r) T_LBRACE) eqn:E1; [left; apply ttype_eqb_eq; exact E1|]. destruct (ttype_eqb (tyof x r) T_RBRACE) eqn:E2; [right; apply ttype_eqb_eq; exact E2|]. exfalso. assert (Z : balance x T_LBRACE T_RBRACE [r] = 0%Z) by (unfold balance; cbn [filter]; rewrite E1, E2; reflexivity). rewrite Z, B in Q. apply K. lia. }
    split; [|exact D]. intros <-. 
    assert (Q2 : balance x T_LBRACE T_RBRACE [l] = 1%Z) by (unfold balance; cbn [filter]; rewrite Tl; reflexivity).
    (* a look-ahead does not come back to a token *)
    assert (F := saw_in x W _ (x_cur x) (here_cur x W) S).
    assert (G : forall ts c, here x c -> saw x c ts -> no_eof x ts -> (match c with Some c => tyof x c <> T_EOF | None => True end) -> forall t, In t ts -> remain x (Some t) < remain x c).
    { induction ts as [|t ts IH]; intros c Hc Sc Ne Nc u Hu; [destruct Hu|]. apply saw_inv in Sc. destruct Sc as [S1 S2]. destruct (pop_peek x W 0 c Hc) as (t' & _ & S' & It & D'). rewrite (sees_fun x W c t t' S1 S') in *. assert (L : remain x (Some t') < remain x c). { destruct D' as [D'|D']; [|exact D']. exfalso. unfold at_end in D'. destruct c as [c|]; [|discriminate]. apply ttype_eqb_eq in D'. contradiction. }
      destruct Hu as [<-|Hu]; [exact L|]. inversion Ne as [|? ? N1 N2]; subst. assert (M := IH (Some t') ltac:(intros v Kv; injection Kv as <-; exact It) S2 N2 N1 u Hu). lia. }
    change ((l :: us) ++ [l]) with (l :: us ++ [l]) in S. apply saw_inv in S. destruct S as [_ S]. inversion NE as [|? ? N1 N2]; subst. inversion F as [|? ? F1 F2]; subst.
    assert (M := G (us ++ [l]) (Some l) ltac:(intros v Kv; injection Kv as <-; exact F1) S N2 N1 l ltac:(apply in_or_app; right; left; reflexivity)). lia.
Qed.
Lemma unattached_ext : forall x y t, x_heap y t = x_heap x t -> (forall p, In p (n_pre (x_heap x t) ++ n_suf (x_heap x t)) -> x_heap y p = x_heap x p) -> unattached x t -> unattached y t.
Proof.
  intros x y t Et Ep [A B]. split.
  - intros p Hp. rewrite Et in Hp. unfold tyof, flagged. rewrite Ep by (apply in_or_app; left; exact Hp). apply A. exact Hp.
  - intros p Hp. rewrite Et in Hp. unfold tyof. rewrite Ep by (apply in_or_app; right; exact Hp). apply B. exact Hp.
Qed.
Lemma next_at : forall (a : list id) c t q, NoDup (a ++ c :: t :: q) -> next_of (a ++ c :: t :: q) c = Some t.
Proof. intros a c t q ND. destruct (nodup_split _ _ _ ND) as [N _]. rewrite next_split by exact N. reflexivity. Qed.
Definition hollow (x : lex) (l r : id) : Prop := (exists a b, x_toks x = a ++ l :: r :: b) /\ unattached x l /\ unattached x r.
Lemma sense_spec : forall x l r, wfs x -> pair_of x T_LBRACE T_RBRACE l r -> exists e, sense_empty x l r = Some e /\
  (e = true <-> unattached x l /\ unattached x r /\ ((exists a b, x_toks x = a ++ l :: r :: b) \/ exists a s b, x_toks x = a ++ l :: s :: r :: b /\ tyof x s = T_SEMI /\ unattached x s)).
Proof.
  intros x l r W P. assert (ND : NoDup (x_toks x)) by apply W. destruct (pair_in x l r W P) as [Il Ir]. unfold sense_empty.
  destruct (is_moveable (x_heap x) l) eqn:M1; cbn [negb orb]; [|exists false; split; [reflexivity|]; split; [discriminate|]; intros (K & _); apply moveable_spec in K; congruence].
  destruct (is_moveable (x_heap x) r) eqn:M2; cbn [negb orb]; [|exists false; split; [reflexivity|]; split; [discriminate|]; intros (_ & K & _); apply moveable_spec in K; congruence].
  apply moveable_spec in M1, M2. destruct (in_split _ _ Il) as (a & b & Et). destruct (pair_close x l r W P) as (Tl & Nlr & _).
  assert (B : b <> []). { apply (not_eof_next x W a l b Et). rewrite Tl. discriminate. }
  destruct b as [|nx b]; [congruence|]. rewrite Et in ND |- *. rewrite (next_at a l nx b ND).
  assert (U : forall a' b', a ++ l :: nx :: b = a' ++ l :: b' -> b' = nx :: b) by (intros a' b' E; destruct (split_unique a l (nx :: b) a' b' ND E) as [_ <-]; reflexivity).
  destruct (Nat.eqb_spec nx r) as [->|N].
  { exists true. split; [reflexivity|]. split; [|reflexivity]. intros _. split; [exact M1|]. split; [exact M2|]. left. eauto. }
  eexists. split; [reflexivity|]. rewrite !andb_true_iff, ttype_eqb_eq, moveable_spec. split.
  - intros ((T & M) & K). split; [exact M1|]. split; [exact M2|]. right. destruct (next_of (a ++ l :: nx :: b) nx) as [t|] eqn:En; [|discriminate]. apply Nat.eqb_eq in K. subst t. apply next_inv in En. destruct En as (a' & b' & En).
    replace (a ++ l :: nx :: b) with ((a ++ [l]) ++ nx :: b) in * by (rewrite <- app_assoc; reflexivity). destruct (split_unique _ _ _ _ _ ND En) as [<- ->]. exists a, nx, b'. split; [rewrite <- app_assoc; reflexivity|auto].
  - intros (_ & _ & [(a' & b' & E)|(a' & s & b' & E & Ts & Us)]).
    + apply U in E. injection E as <- <-. congruence.
    + destruct (split_unique a l (nx :: b) a' (s :: r :: b') ND E) as [_ Q]. injection Q as -> ->. split; [auto|].
      replace (a ++ l :: s :: r :: b') with ((a ++ [l]) ++ s :: r :: b') in * by (rewrite <- app_assoc; reflexivity). rewrite next_at by exact ND. apply Nat.eqb_refl.
Qed.

(** A loop with an empty body, with or without braces and semicolon, is given the body continue;
    and nothing else changes. *)
Theorem C66_loop : forall x, wfs x -> small x -> exists y, empty_loop x = Some y /\
  ((exists p ws q, empty_body x p ws q /\ spelled x y p ws q) \/ ((forall p ws q, ~ empty_body x p ws q) /\ y = x)).
Proof.
  intros x W SM. assert (ND : NoDup (x_toks x)) by apply W. unfold empty_loop.
  assert (LB : forall l r, pair_of x T_LBRACE T_RBRACE l r -> sees x (x_cur x) l /\ tyof x l = T_LBRACE). { intros l r (ts & S & Hl & _ & T & _). destruct ts; [discriminate|]. injection Hl as ->. apply saw_inv in S. split; [apply S|exact T]. }
  destruct (peek_if_total x W T_LBRACE) as [(t & E)|E]; rewrite E.
  - apply (peek_if_spec x W) in E. destruct E as [St Tt]. unfold loop_braces.
    assert (NOS : forall c u, x_cur x = Some c -> sees x (Some c) u -> tyof x u <> T_SEMI). { intros c u Ec Su K. rewrite Ec in St. rewrite (sees_fun x W _ _ _ Su St) in K. congruence. }
    destruct (peek_if_pair_spec x W T_LBRACE T_RBRACE ltac:(discriminate)) as [(l & r & -> & P)|(-> & NP)].
    2:{ exists x. split; [reflexivity|]. right. split; [|reflexivity]. intros p ws q K. destruct K as [a c q u Ec _ Su Tu|a l r b P|a l s r b P]; [exact (NOS c u Ec Su Tu)|exact (NP _ _ P)|exact (NP _ _ P)]. }
    destruct (sense_spec x l r W P) as (e & -> & Se). destruct e; cbn [negb].
    2:{ exists x. split; [reflexivity|]. right. split; [|reflexivity]. intros p ws q K. assert (false = true); [|discriminate]. apply Se. destruct K as [a c q u Ec _ Su Tu|a l' r' b P' Et U1 U2|a l' s r' b P' Et Ts U1 U2 U3]; [destruct (NOS c u Ec Su Tu)| |]; destruct (C12_unique x T_LBRACE T_RBRACE _ _ _ _ W P' P) as [-> ->]; (split; [assumption|]; split; [assumption|]); [left; eauto|right; exists a, s, b; auto]. }
    apply proj1 in Se. specialize (Se eq_refl). destruct Se as (U1 & U2 & Se). destruct (pair_close x l r W P) as (Tl & Nlr & Tr).
    destruct Se as [(a & b & Et)|(a & s & b & Et & Ts & Us)].
    + destruct (inserted1 x a l (r :: b) continue_token w_continue ND SM Et eq_refl eq_refl eq_refl) as (y & -> & Ny & Ty & Sy & _ & _).
      assert (ND1 : NoDup (x_toks y)). { rewrite Ty. replace (a ++ l :: x_next x :: r :: b) with ((a ++ [l]) ++ x_next x :: r :: b) by (rewrite <- app_assoc; reflexivity). apply (NoDup_Add (a := x_next x) (l := (a ++ [l]) ++ r :: b)); [apply Add_app|]. rewrite <- app_assoc. cbn [app]. rewrite <- Et. split; [exact ND|]. intros K. apply SM in K. lia. }
      rewrite Ty in ND1 |- *. replace (a ++ l :: x_next x :: r :: b) with ((a ++ [l]) ++ x_next x :: r :: b) in * by (rewrite <- app_assoc; reflexivity). rewrite (next_at _ _ _ _ ND1).
      assert (Hr : tyof y r = tyof x r). { unfold tyof. destruct Sy as (_ & _ & K & _). rewrite K; [reflexivity|]. apply SM. rewrite Et. apply in_or_app. right. right. left. reflexivity. }
      assert (T2 : ttype_eqb (tyof y r) T_SEMI = false) by (apply ttype_eqb_neq; rewrite Hr; destruct Tr as [-> | ->]; discriminate). rewrite T2. rewrite <- Ty in ND1.
      assert (SMy : small y). { intros t' Ht'. rewrite Ny. rewrite Ty in Ht'. apply in_app_or in Ht'. destruct Ht' as [K|[<-|K]]; [| lia|]; (assert (t' < x_next x); [|lia]); apply SM; rewrite Et; [apply in_app_or in K; apply in_or_app; destruct K as [K|[<-|[]]]; [left; exact K|right; left; reflexivity]|apply in_or_app; right; right; exact K]. }
      destruct (inserted1 y (a ++ [l]) (x_next x) (r :: b) semi_token w_semi ND1 SMy Ty eq_refl eq_refl eq_refl) as (z & -> & Nz & Tz & Sz & _ & _).
      exists z. split; [reflexivity|]. left. exists (a ++ [l]), [w_continue; w_semi], (r :: b). split; [apply eb_braces; assumption|].
      destruct Sy as (Y1 & (ts & Y2 & _ & Y3) & Y4 & Y5). destruct Sz as (Z1 & (us & Z2 & _ & Z3) & Z4 & Z5). split; [exact Y1|]. split; [|split; [intros i Hi; rewrite Z4 by lia; apply Y4; exact Hi|congruence]].
      rewrite Ty in Y2. apply app_inv_head in Y2. change (x_next x :: r :: b) with ([x_next x] ++ r :: b) in Y2. apply app_inv_tail in Y2. subst ts. inversion Y3 as [|? ? ? ? Y3' _]; subst. rewrite Tz in Z2. rewrite <- !app_assoc in Z2. do 2 apply app_inv_head in Z2. cbn [app] in Z2. injection Z2 as Z2. change (x_next y :: r :: b) with ([x_next y] ++ r :: b) in Z2. apply app_inv_tail in Z2. subst us.
      inversion Z3 as [|? ? ? ? Z3' _]; subst. exists [x_next x; x_next y]. split; [rewrite Tz; reflexivity|]. split; [constructor; [intros [K|[]]; lia|repeat constructor; intros []]|]. constructor; [|constructor; [|constructor]].
      * destruct Y3' as (A1 & A0 & A2 & A3 & A4 & A5). unfold new_token, tyof, flagged in *. rewrite (Z4 (x_next x)) by lia. split; [lia|]. auto.
      * destruct Z3' as (A1 & A2). split; [lia|exact A2].
    + destruct (inserted1 x a l (s :: r :: b) continue_token w_continue ND SM Et eq_refl eq_refl eq_refl) as (y & -> & Ny & Ty & Sy & _ & _).
      assert (ND1 : NoDup (x_toks y)). { rewrite Ty. replace (a ++ l :: x_next x :: s :: r :: b) with ((a ++ [l]) ++ x_next x :: s :: r :: b) by (rewrite <- app_assoc; reflexivity). apply (NoDup_Add (a := x_next x) (l := (a ++ [l]) ++ s :: r :: b)); [apply Add_app|]. rewrite <- app_assoc. cbn [app]. rewrite <- Et. split; [exact ND|]. intros K. apply SM in K. lia. }
      rewrite Ty in ND1 |- *. replace (a ++ l :: x_next x :: s :: r :: b) with ((a ++ [l]) ++ x_next x :: s :: r :: b) in * by (rewrite <- app_assoc; reflexivity). rewrite (next_at _ _ _ _ ND1).
      assert (Hs : tyof y s = T_SEMI). { unfold tyof. destruct Sy as (_ & _ & K & _). rewrite K; [exact Ts|]. apply SM. rewrite Et. apply in_or_app. right. right. left. reflexivity. }
      rewrite Hs. exists y. split; [reflexivity|]. left. exists (a ++ [l]), [w_continue], (s :: r :: b). split; [apply eb_braces_semi; assumption|exact Sy].
  - assert (NB : forall u, sees x (x_cur x) u -> tyof x u <> T_LBRACE). { intros u Su K. assert (Q := proj2 (peek_if_spec x W T_LBRACE u) (conj Su K)). congruence. }
    assert (NP : forall l r, ~ pair_of x T_LBRACE T_RBRACE l r) by (intros l r P; destruct (LB l r P) as [S T]; exact (NB l S T)).
    unfold loop_no_braces. destruct (peek_if_total x W T_SEMI) as [(t & Es)|Es]; rewrite Es.
    + apply (peek_if_spec x W) in Es. destruct Es as [St Tt]. unfold lexer_back. destruct (x_cur x) as [c|] eqn:Ec.
      * destruct (cur_split x W c Ec) as (a & q & Et). destruct (inserted1 x a c q continue_token w_continue ND SM Et eq_refl eq_refl eq_refl) as (y & -> & _ & _ & Sy & _ & _). exists y. split; [reflexivity|]. left. exists (a ++ [c]), [w_continue], q. split; [apply (eb_semi x a c q t Ec Et St Tt)|exact Sy].
      * exists x. split; [reflexivity|]. right. split; [|reflexivity]. intros p ws q K. destruct K as [a c q u Ec' _ Su Tu|a l r b P|a l s r b P]; [congruence|exact (NP _ _ P)|exact (NP _ _ P)].
    + exists x. split; [reflexivity|]. right. split; [|reflexivity]. intros p ws q K. destruct K as [a c q u Ec _ Su Tu|a l r b P|a l s r b P]; [|exact (NP _ _ P)|exact (NP _ _ P)]. rewrite <- Ec in Su. assert (Q := proj2 (peek_if_spec x W T_SEMI u) (conj Su Tu)). congruence.
Qed.

(** A default without statements is given a break on a line of its own and nothing else changes. *)
Lemma if_at : forall x, wfs x -> forall n ty c, here x c -> exists t, sees x c t /\ In t (x_toks x) /\ lexer_if ty (at_ x n c) = if ttype_eqb (tyof x t) ty then (Some t, at_ x n (Some t)) else (None, at_ x n c).
Proof.
  intros x W n ty c Hc. destruct (pop_peek x W n c Hc) as (t & E & S & I & _). exists t. split; [exact S|]. split; [exact I|]. unfold lexer_if. rewrite E. change (tyof (at_ x n (Some t)) t) with (tyof x t). destruct (ttype_eqb (tyof x t) ty); reflexivity.
Qed.
Theorem C66_switch : forall x kw, wfs x -> small x -> In kw (x_toks x) -> exists y, simple_switch kw x = Some y /\
  ((exists colon a q, empty_default x kw colon /\ x_toks x = a ++ colon :: q /\ spelled x y (a ++ [colon]) [w_break] q /\ (forall t, In t (x_toks y) -> ~ In t (x_toks x) -> n_lno (x_heap y t) = S (n_lno (x_heap x colon)))) \/
   ((forall colon, ~ empty_default x kw colon) /\ y = x)).
Proof.
  intros x kw W SM Ikw. assert (ND : NoDup (x_toks x)) by apply W. unfold simple_switch. destruct (ttype_eqb (tyof x kw) T_DEFAULT) eqn:Tk; cbn [negb].
  2:{ exists x. split; [reflexivity|]. right. split; [|reflexivity]. intros colon (K & _). apply ttype_eqb_neq in Tk. contradiction. }
  apply ttype_eqb_eq in Tk. cbn [lexer_peek_enter]. set (s := (x_cur x, x_err x)). set (c0 := prev_of (x_toks x) kw).
  change (lexer_seek kw (set_peek (S (x_peek x)) x)) with (at_ x (x_peek x) c0). set (n := x_peek x).
  assert (H0 : here x c0). { intros t K. unfold c0 in K. destruct (in_split _ _ Ikw) as (a & b & E). rewrite E in ND, K. unfold prev_of in K. destruct (nodup_split _ _ _ ND) as [N _]. rewrite prev_from_split in K by exact N. rewrite E. apply in_or_app. left. apply in_rev. destruct (rev a); [discriminate|]. injection K as <-. left. reflexivity. }
  assert (LV : forall y, lexer_peek_leave s (at_ x n y) = x) by (intros y; apply leave_x; exact W).
  assert (NO : (forall d colon semi, saw x c0 [d; colon; semi] -> tyof x d = T_DEFAULT -> tyof x colon = T_COLON -> tyof x semi = T_SEMI -> False) -> forall colon, ~ empty_default x kw colon) by (intros H colon (_ & d & semi & S & A & B & C); exact (H d colon semi S A B C)).
  destruct (if_at x W n T_DEFAULT c0 H0) as (d & Sd & Id & ->). destruct (ttype_eqb (tyof x d) T_DEFAULT) eqn:Td.
  2:{ rewrite LV. exists x. split; [reflexivity|]. right. split; [|reflexivity]. apply NO. intros d' colon semi S A _ _. apply saw_inv in S. rewrite (sees_fun x W c0 d' d (proj1 S) Sd) in A. apply ttype_eqb_neq in Td. contradiction. }
  assert (H1 : here x (Some d)) by (intros t K; injection K as <-; exact Id).
  destruct (if_at x W n T_COLON (Some d) H1) as (colon & Sc & Ic & ->). destruct (ttype_eqb (tyof x colon) T_COLON) eqn:Tc.
  2:{ rewrite LV. exists x. split; [reflexivity|]. right. split; [|reflexivity]. apply NO. intros d' colon' semi S _ B _. apply saw_inv in S. destruct S as [S1 S2]. rewrite (sees_fun x W c0 d' d S1 Sd) in *. apply saw_inv in S2. rewrite (sees_fun x W _ _ _ (proj1 S2) Sc) in B. apply ttype_eqb_neq in Tc. contradiction. }
  assert (H2 : here x (Some colon)) by (intros t K; injection K as <-; exact Ic).
  destruct (if_at x W n T_SEMI (Some colon) H2) as (semi & Ss & Is & ->). destruct (ttype_eqb (tyof x semi) T_SEMI) eqn:Ts.
  2:{ rewrite LV. exists x. split; [reflexivity|]. right. split; [|reflexivity]. apply NO. intros d' colon' semi' S _ _ C. apply saw_inv in S. destruct S as [S1 S2]. rewrite (sees_fun x W c0 d' d S1 Sd) in *. apply saw_inv in S2. destruct S2 as [S2 S3]. rewrite (sees_fun x W _ _ _ S2 Sc) in *. apply saw_inv in S3. rewrite (sees_fun x W _ _ _ (proj1 S3) Ss) in C. apply ttype_eqb_neq in Ts. contradiction. }
  rewrite LV. destruct (in_split _ _ Ic) as (a & q & Et). destruct (inserted1 x a colon q break_token w_break ND SM Et eq_refl eq_refl eq_refl) as (y & -> & Ny & Ty & Sy & _ & Ly).
  exists (next_line (x_next x) y). split; [reflexivity|]. left. exists colon, a, q. split.
  { split; [exact Tk|]. exists d, semi. apply ttype_eqb_eq in Td, Tc, Ts. split; [|auto]. econstructor; [exact Sd|]. econstructor; [exact Sc|]. econstructor; [exact Ss|constructor]. }
  split; [exact Et|]. destruct Sy as (Y1 & (ts & Y2 & _ & Y3) & Y4 & Y5).
  assert (HN : forall i, i <> x_next x -> x_heap (next_line (x_next x) y) i = x_heap y i) by (intros i Hi; unfold next_line, modify, upd; cbn [x_heap set_heap]; apply Nat.eqb_neq in Hi; rewrite Hi; reflexivity).
  assert (HE : x_heap (next_line (x_next x) y) (x_next x) = set_pos (S (n_lno (x_heap y (x_next x)))) (n_cno (x_heap y (x_next x))) (x_heap y (x_next x))) by (unfold next_line, modify, upd; cbn [x_heap set_heap]; rewrite Nat.eqb_refl; reflexivity).
  change (x_toks (next_line (x_next x) y)) with (x_toks y). rewrite Ty in Y2. rewrite <- app_assoc in Y2. apply app_inv_head in Y2. injection Y2 as Y2. change (x_next x :: q) with ([x_next x] ++ q) in Y2. apply app_inv_tail in Y2. subst ts. inversion Y3 as [|? ? ? ? (A1 & A0 & A2 & A3 & A4 & A5) _]; subst.
  split.
  - split; [exact Y1|]. split; [|split; [intros i Hi; rewrite HN by lia; apply Y4; exact Hi|exact Y5]]. exists [x_next x]. split; [change (x_toks (next_line (x_next x) y)) with (x_toks y); rewrite Ty, <- app_assoc; reflexivity|]. split; [repeat constructor; intros []|]. constructor; [|constructor]. split; [exact A1|]. unfold tyof, flagged in *. rewrite HE. cbn [n_type n_str n_pre n_suf n_flags set_pos]. auto.
  - intros t Ht Nt. rewrite Ty in Ht. apply in_app_or in Ht. rewrite Et in Nt. destruct Ht as [Ht|[<-|[<-|Ht]]].
    + destruct Nt. apply in_or_app. left. exact Ht.
    + destruct Nt. apply in_or_app. right. left. reflexivity.
    + rewrite HE. cbn [n_lno set_pos]. rewrite Ly. reflexivity.
    + destruct Nt. apply in_or_app. right. right. exact Ht.
Qed.

(** Doing it again changes nothing. *)
Lemma spelled_wfs : forall x y p c w ws q, wfs x -> small x -> branchless x -> tyof x c <> T_EOF -> Forall (fun w => fst w <> T_EOF) (w :: ws) -> spelled x y (p ++ [c]) (w :: ws) q -> wfs y /\ branchless y /\ small y.
Proof.
  intros x y p c w ws q W SM BL Te FW (E1 & (ts & E2 & NDt & F2) & E3 & E4). pose proof W as ((body & e & Eb & He & Hb) & ND & HC & _).
  assert (OLD : forall t, In t (x_toks x) -> x_heap y t = x_heap x t) by (intros t Ht; apply E3, SM, Ht).
  assert (NEW : forall t, In t ts -> x_next x <= t < x_next y /\ flagged F_BRANCH y t = false /\ tyof y t <> T_EOF).
  { clear -F2 FW. revert FW F2. generalize (w :: ws) as vs. intros vs FW F2. induction F2 as [|v t vs ts (A & B & C & _) _ IH]; intros u Hu; [destruct Hu|]. inversion FW; subst. destruct Hu as [<-|Hu]; [|apply IH; assumption]. split; [exact A|]. split; [exact B|]. rewrite C. assumption. }
  assert (Nx : x_next x <= x_next y) by (destruct ts as [|t ts]; [inversion F2|destruct (NEW t (or_introl eq_refl)) as [K _]; lia]).
  assert (SPLIT : forall t, In t (x_toks y) -> In t (x_toks x) \/ In t ts) by (intros t Ht; rewrite E2 in Ht; rewrite E1; rewrite !in_app_iff in *; tauto).
  assert (BLy : branchless y). { intros t Ht. destruct (SPLIT t Ht) as [K|K]; [|apply NEW, K]. unfold flagged. rewrite (OLD t K). apply BL. exact K. }
  assert (Nq : q <> []). { assert (E1' : x_toks x = p ++ c :: q) by (rewrite E1, <- app_assoc; reflexivity). apply (not_eof_next x W p c q E1' Te). }
  destruct q as [|eq q _] using rev_ind; [congruence|]. assert (Eq : body = (p ++ [c]) ++ q /\ e = eq). { rewrite Eb in E1. rewrite app_assoc in E1. apply app_inj_tail in E1. destruct E1 as [-> ->]. auto. } destruct Eq as [-> <-].
  split; [split; [|split; [|split]]|split; [exact BLy|]].
  - exists ((p ++ [c]) ++ ts ++ q), e. split; [rewrite E2, <- !app_assoc; reflexivity|]. split; [unfold tyof; rewrite OLD; [exact He|rewrite E1, app_assoc; apply in_or_app; right; left; reflexivity]|]. apply Forall_forall. intros t Ht.
    assert (D : In t ((p ++ [c]) ++ q) \/ In t ts) by (rewrite !in_app_iff in *; tauto). destruct D as [D|D]; [|apply NEW, D]. unfold tyof. rewrite OLD; [rewrite Forall_forall in Hb; apply Hb, D|]. rewrite Eb. apply in_or_app. left. exact D.
  - rewrite E2. rewrite E1 in ND. assert (DJ : forall t, In t ts -> ~ In t ((p ++ [c]) ++ q ++ [e])). { intros t Ht K. rewrite <- E1 in K. apply SM in K. apply NEW in Ht. lia. }
    clear -ND NDt DJ. revert ND DJ. generalize (p ++ [c]) as a. generalize (q ++ [e]) as b. intros b a ND DJ. induction a as [|u a IH].
    + cbn [app] in *. induction ts as [|t ts IHt]; [exact ND|]. inversion NDt; subst. cbn [app]. constructor; [|apply IHt; [assumption|intros v Hv; apply DJ; right; exact Hv]]. intros K. apply in_app_or in K. destruct K as [K|K]; [contradiction|]. apply (DJ t (or_introl eq_refl) K).
    + cbn [app] in *. inversion ND; subst. constructor; [|apply IH; [assumption|intros v Hv K; apply (DJ v Hv); right; exact K]]. intros K. rewrite !in_app_iff in K. destruct K as [K|[K|K]]; [apply H1; apply in_or_app; left; exact K|apply (DJ u K); left; reflexivity|apply H1; apply in_or_app; right; exact K].
  - intros t Ht. rewrite E4 in Ht. apply HC in Ht. rewrite E1 in Ht. rewrite E2. rewrite !in_app_iff in *. tauto.
  - intros a t r Et K. rewrite BLy in K; [discriminate|]. rewrite Et. apply in_or_app. right. left. reflexivity.
  - intros t Ht. destruct (SPLIT t Ht) as [K|K]; [apply SM in K; lia|]. apply NEW in K. lia.
Qed.
Lemma sees_after : forall x c t, branchless x -> here x c -> sees x c t -> after x c t.
Proof.
  intros x c t BL Hc (t0 & A & H). destruct (flagged F_BRANCH x t0) eqn:K; cbn [andb] in H; [|subst; exact A]. exfalso. rewrite BL in K; [discriminate|]. unfold after in A. destruct c as [c|].
  - destruct (ttype_eqb (tyof x c) T_EOF); [subst; apply Hc; reflexivity|]. destruct A as (a & r & ->). apply in_or_app. right. right. left. reflexivity.
  - destruct A as (r & ->). left. reflexivity.
Qed.
Lemma after_then : forall x c t a q, NoDup (x_toks x) -> tyof x c <> T_EOF -> x_toks x = a ++ c :: q -> after x (Some c) t -> exists r, q = t :: r.
Proof. intros x c t a q ND Te E A. unfold after in A. apply ttype_eqb_neq in Te. rewrite Te in A. destruct A as (a' & r & E'). rewrite E in *. destruct (split_unique _ _ _ _ _ ND E') as [_ ->]. eauto. Qed.
Theorem C66_again : forall x y, wfs x -> small x -> branchless x -> empty_loop x = Some y -> empty_loop y = Some y.
Proof.
  intros x y W SM BL H. destruct (C66_loop x W SM) as (y' & H' & D). rewrite H in H'. injection H' as <-. destruct D as [(p & ws & q & EB & SP)|(_ & ->)]; [|exact H].
  assert (ND : NoDup (x_toks x)) by apply W.
  assert (KEY : exists a c ws', p = a ++ [c] /\ ws = w_continue :: ws' /\ tyof x c <> T_EOF /\ Forall (fun w => fst w <> T_EOF) ws /\
    ((x_cur x = Some c /\ exists t, sees x (Some c) t) \/ (sees x (x_cur x) c /\ tyof x c = T_LBRACE))).
  { assert (LB : forall l r, pair_of x T_LBRACE T_RBRACE l r -> sees x (x_cur x) l /\ tyof x l = T_LBRACE). { intros l r (ts & S & Hl & _ & T & _). destruct ts; [discriminate|]. injection Hl as ->. apply saw_inv in S. split; [apply S|exact T]. }
    destruct EB as [a c q t Ec Et Sc Tc|a l r b P Et U1 U2|a l s r b P Et Ts U1 U2 U3].
    - exists a, c, []. split; [reflexivity|]. split; [reflexivity|]. split; [|split; [repeat constructor; discriminate|left; eauto]]. intros K. apply sees_after in Sc; [|exact BL|intros u Ku; injection Ku as <-; rewrite Et; apply in_or_app; right; left; reflexivity]. unfold after in Sc. rewrite K in Sc. cbn in Sc. congruence.
    - exists a, l, [w_semi]. split; [reflexivity|]. split; [reflexivity|]. destruct (LB l r P) as [S T]. split; [rewrite T; discriminate|]. split; [repeat constructor; discriminate|right; auto].
    - exists a, l, []. split; [reflexivity|]. split; [reflexivity|]. destruct (LB l r P) as [S T]. split; [rewrite T; discriminate|]. split; [repeat constructor; discriminate|right; auto]. }
  destruct KEY as (a & c & ws' & -> & -> & Tc & FW & D). destruct (spelled_wfs x y a c w_continue ws' q W SM BL Tc FW SP) as (Wy & BLy & SMy).
  assert (NDy : NoDup (x_toks y)) by apply Wy. destruct SP as (E1 & (ts & E2 & _ & F2) & E3 & E4). inversion F2 as [|? k ? ts' (K1 & K2 & K3 & _) _]; subst.
  assert (Ety : x_toks y = a ++ c :: k :: (ts' ++ q)) by (rewrite E2, <- app_assoc; reflexivity). assert (Etx : x_toks x = a ++ c :: q) by (rewrite E1, <- app_assoc; reflexivity).
  assert (OLD : forall t, In t (x_toks x) -> tyof y t = tyof x t) by (intros t Ht; unfold tyof; rewrite E3; [reflexivity|apply SM, Ht]).
  assert (Ic : In c (x_toks x)) by (rewrite Etx; apply in_or_app; right; left; reflexivity).
  assert (Tcy : tyof y c <> T_EOF) by (rewrite OLD; assumption).
  assert (HCy : here y (x_cur y)) by (apply here_cur; exact Wy).
  destruct (C66_loop y Wy SMy) as (z & Hz & DD). rewrite Hz. destruct DD as [(p & ws & q' & EBy & _)|(_ & ->)]; [|reflexivity]. exfalso.
  assert (FIRST : forall u, sees y (x_cur y) u -> (u = k /\ x_cur x = Some c) \/ (u = c /\ tyof x c = T_LBRACE)).
  { intros u Su. apply sees_after in Su; [|exact BLy|exact HCy]. rewrite E4 in Su. destruct D as [[Dc _]|[Ds Dt]].
    - left. split; [|exact Dc]. rewrite Dc in Su. destruct (after_then y c u a _ NDy Tcy Ety Su) as (r & R). injection R as R _. congruence.
    - right. split; [|exact Dt]. apply sees_after in Ds; [|exact BL|apply here_cur; exact W]. destruct (x_cur x) as [d|] eqn:Ed.
      + assert (Id : In d (x_toks x)) by (apply W; exact Ed). unfold after in Ds. destruct (ttype_eqb (tyof x d) T_EOF) eqn:Te; [subst; apply ttype_eqb_eq in Te; contradiction|]. apply ttype_eqb_neq in Te. destruct Ds as (a' & r & Er).
        assert (E5 : (a' ++ [d]) ++ c :: r = a ++ c :: q) by (rewrite <- app_assoc; cbn [app]; congruence). assert (ND5 : NoDup ((a' ++ [d]) ++ c :: r)) by (rewrite E5, <- Etx; exact ND). destruct (split_unique _ _ _ _ _ ND5 E5) as [<- _].
        assert (Ty' : x_toks y = a' ++ d :: c :: k :: ts' ++ q) by (rewrite Ety, <- app_assoc; reflexivity). destruct (after_then y d u a' _ NDy ltac:(rewrite OLD by exact Id; exact Te) Ty' Su) as (r' & R). injection R as R _. congruence.
      + cbn [after] in Ds, Su. destruct Ds as (r & Er). destruct Su as (r' & Er'). assert (A0 : a = []). { destruct a as [|u0 a]; [reflexivity|]. exfalso. rewrite Er in Etx. injection Etx as -> ->. rewrite Er in ND. inversion ND as [|? ? N _]; subst. apply N. apply in_or_app. right. left. reflexivity. } subst a. rewrite Er' in Ety. injection Ety as -> _. reflexivity. }
  destruct EBy as [a' c' q' t Ec Et Sc Ts|a' l r b P Et U1 U2|a' l s r b P Et Ts U1 U2 U3].
  - rewrite <- Ec in Sc. destruct (FIRST t Sc) as [[-> _]|[-> T]]; [rewrite K3 in Ts; discriminate|]. rewrite OLD in Ts by exact Ic. rewrite T in Ts. discriminate.
  - destruct (pair_close y l r Wy P) as (Tl & _ & Tr). destruct P as (us & S & Hl & _). destruct us; [discriminate|]. injection Hl as ->. apply saw_inv in S. destruct S as [S _]. destruct (FIRST l S) as [[-> _]|[-> T]]; [rewrite K3 in Tl; discriminate|].
    rewrite Ety in Et, NDy. destruct (split_unique _ _ _ _ _ NDy Et) as [_ Q]. injection Q as -> _. rewrite K3 in Tr. destruct Tr as [Tr|Tr]; discriminate.
  - destruct (pair_close y l r Wy P) as (Tl & _ & _). destruct P as (us & S & Hl & _). destruct us; [discriminate|]. injection Hl as ->. apply saw_inv in S. destruct S as [S _]. destruct (FIRST l S) as [[-> _]|[-> T]]; [rewrite K3 in Tl; discriminate|].
    rewrite Ety in Et, NDy. destruct (split_unique _ _ _ _ _ NDy Et) as [_ Q]. injection Q as -> _. rewrite K3 in Ts. discriminate.
Qed.

(** ** Examples *)
(** while ( x ) { }, after the right parenthesis. *)
Definition ex_loop : lex := set_cur (Some 3) (protostream [(T_WHILE, 0%N, "while"); (T_LPAREN, 0%N, "("); (T_IDENT, 0%N, "x"); (T_RPAREN, 0%N, ")"); (T_LBRACE, 0%N, "{"); (T_RBRACE, 0%N, "}"); (T_EOF, 0%N, "")]%string).
Lemma plain_wfs : forall l c, ends l = true -> forallb (fun k => negb (has_flag (snd (fst k)) F_BRANCH)) l = true -> c < length l -> wfs (set_cur (Some c) (protostream l)) /\ branchless (set_cur (Some c) (protostream l)) /\ small (set_cur (Some c) (protostream l)).
Proof.
  intros l c B F Hc. assert (W := plain_wfl l B).
  assert (BL : branchless (set_cur (Some c) (protostream l))).
  { intros t Ht. unfold flagged, set_cur, protostream, stream, of_list. cbn [x_heap]. destruct (nth_error l t) as [k|] eqn:Ek.
    - erewrite nth_error_nth; [|rewrite nth_error_map, Ek; reflexivity]. rewrite forallb_forall in F. specialize (F k (nth_error_In _ _ Ek)). apply negb_true_iff in F. destruct k as [[ty f] s]. exact F.
    - change (x_toks (set_cur (Some c) (protostream l))) with (seq 0 (length l)) in Ht. apply in_seq in Ht. apply nth_error_None in Ek. lia. }
  split; [|split; [exact BL|]].
  - split; [destruct (wl_eof _ _ W) as (body & e & H); exists body, e; exact H|]. split; [apply (whole_toks _ _ (wl_nodup _ _ W))|]. split.
    + intros t K. injection K as <-. change (x_toks (set_cur (Some c) (protostream l))) with (seq 0 (length l)). apply in_seq. lia.
    + intros a t r Et K. rewrite BL in K; [discriminate|]. rewrite Et. apply in_or_app. right. left. reflexivity.
  - intros t Ht. change (x_toks (set_cur (Some c) (protostream l))) with (seq 0 (length l)) in Ht. apply in_seq in Ht. unfold protostream, stream. cbn [x_next set_cur]. rewrite map_length. lia.
Qed.
Example ex_loop_meets : wfs ex_loop /\ branchless ex_loop /\ small ex_loop.
Proof. apply plain_wfs; [reflexivity|reflexivity|cbn; lia]. Qed.
Example ex_loop_run : match empty_loop ex_loop with Some y => shown y = map s2b ["while"; "("; "x"; ")"; "{"; "continue"; ";"; "}"; ""]%string | None => False end.
Proof. vm_compute. reflexivity. Qed.
(** switch ( x ) { default : ; } *)
Definition switch_of (l : list (ttype * N * string)) : list (ttype * N * string) :=
  [(T_SWITCH, 0%N, "switch"); (T_LPAREN, 0%N, "("); (T_IDENT, 0%N, "x"); (T_RPAREN, 0%N, ")"); (T_LBRACE, 0%N, "{"); (T_DEFAULT, 0%N, "default"); (T_COLON, 0%N, ":"); (T_SEMI, 0%N, ";")]%string ++ l ++ [(T_RBRACE, 0%N, "}"); (T_EOF, 0%N, "")]%string.
Definition ex_switch : lex := set_cur (Some 6) (protostream (switch_of [])).
Example ex_switch_meets : wfs ex_switch /\ branchless ex_switch /\ small ex_switch /\ In 5 (x_toks ex_switch).
Proof. split; [|split; [|split]]; [apply plain_wfs; [reflexivity|reflexivity|cbn; lia]..|vm_compute; tauto]. Qed.
Example ex_switch_run : match simple_switch 5 ex_switch with Some y => shown y = map s2b ["switch"; "("; "x"; ")"; "{"; "default"; ":"; "break"; ";"; "}"; ""]%string | None => False end.
Proof. vm_compute. reflexivity. Qed.

(** The break is added even if statements follow the empty one, which are no longer reached:
    switch (x) { default: ; f(); } becomes switch (x) { default: break; f(); } *)
Theorem C66_reached_refuted : exists x kw y, wfs x /\ small x /\ In kw (x_toks x) /\ simple_switch kw x = Some y /\
  shown x = map s2b ["switch"; "("; "x"; ")"; "{"; "default"; ":"; ";"; "f"; "("; ")"; ";"; "}"; ""]%string /\
  shown y = map s2b ["switch"; "("; "x"; ")"; "{"; "default"; ":"; "break"; ";"; "f"; "("; ")"; ";"; "}"; ""]%string.
Proof.
  set (l := switch_of [(T_IDENT, 0%N, "f"); (T_LPAREN, 0%N, "("); (T_RPAREN, 0%N, ")"); (T_SEMI, 0%N, ";")]%string).
  destruct (plain_wfs l 6 eq_refl eq_refl ltac:(cbn; lia)) as (A & _ & B).
  exists (set_cur (Some 6) (protostream l)), 5. eexists. split; [exact A|]. split; [exact B|]. split; [vm_compute; tauto|]. split; [vm_compute; reflexivity|]. split; vm_compute; reflexivity.
Qed.

Definition ex_cond : lex := set_cur (Some 3) (stream
  [tok T_WHILE 0 "while"; tok T_LPAREN 0 "("; tok T_IDENT 0 "x"; tok T_RPAREN 0 ")"; Node T_SEMI 0 2 1 (s2b ";") 2 true [6] [] None None None; tok T_EOF 0 "";
   Node T_CPP_IF F_CPP 2 1 (s2b "#if A") 1 true [] [] None None (Some 4)]%string [0;1;2;3;4;5]).
(** The continue is put in front of a directive that precedes the semicolon, outside of the
    conditional: while (x) #if A ; #endif is continue #if A ; #endif afterwards. *)
Theorem C66_directive_refuted : exists x y, wfs x /\ small x /\ empty_loop x = Some y /\
  map (fun t => n_str (x_heap x t)) (whole (x_heap x) (x_toks x)) = map s2b ["while"; "("; "x"; ")"; "#if A"; ";"; ""]%string /\
  map (fun t => n_str (x_heap y t)) (whole (x_heap y) (x_toks y)) = map s2b ["while"; "("; "x"; ")"; "continue"; "#if A"; ";"; ""]%string.
Proof.
  exists ex_cond. eexists. split; [|split; [|split; [vm_compute; reflexivity|split; vm_compute; reflexivity]]].
  - split; [exists [0;1;2;3;4], 5; split; [reflexivity|split; [reflexivity|repeat constructor; vm_compute; discriminate]]|]. split; [repeat constructor; cbn; intuition discriminate|]. split; [intros c K; injection K as <-; cbn; tauto|].
    intros a t r E H. rewrite (not_branch ex_cond [0;1;2;3;4;5]) in H; [discriminate|reflexivity|]. change (x_toks ex_cond) with [0;1;2;3;4;5] in E. rewrite E. apply in_or_app. right; left; auto.
  - intros t Ht. change (x_toks ex_cond) with [0;1;2;3;4;5] in Ht. change (x_next ex_cond) with 7. cbn in Ht. lia.
Qed.

Print Assumptions C66_loop.
Print Assumptions C66_switch.
Print Assumptions C66_again.
Print Assumptions C66_reached_refuted.
Print Assumptions C66_directive_refuted.
