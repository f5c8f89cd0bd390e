(** The token stream: specification and proofs (StreamModel). *)
From Verif Require Import Base TokenModel StreamModel.

(** ** Specification *)
(** [t] is the token after [c] in the list of tokens ([None]: the beginning); nothing comes
    after the end of file but itself. *)
Definition after (x : lex) (c : option id) (t : id) : Prop :=
  match c with
  | None => exists r, x_toks x = t :: r
  | Some c => if ttype_eqb (tyof x c) T_EOF then t = c else exists a r, x_toks x = a ++ c :: t :: r
  end.

(** The token at the end of the conditional whose directives continue at [p]. *)
Inductive cond_end (h : heap) : id -> id -> Prop :=
| ce_last : forall p e, n_nx (h p) = None -> n_parent (h p) = Some e -> cond_end h p e
| ce_next : forall p q e, n_nx (h p) = Some q -> cond_end h q e -> cond_end h p e.

(** A look-ahead sees the next token, or the one after the whole conditional if the next
    token starts another branch of it. *)
Definition sees (x : lex) (c : option id) (t : id) : Prop :=
  exists t0, after x c t0 /\
    (if flagged F_BRANCH x t0 && negb (match c with Some c => ttype_eqb (tyof x c) T_EOF | None => true end)
     then exists p, branch_find (x_heap x) t0 = Some p /\ cond_end (x_heap x) p t
     else t = t0).
(** The tokens a look-ahead sees one after the other. *)
Inductive saw (x : lex) : option id -> list id -> Prop :=
| saw_nil : forall c, saw x c []
| saw_cons : forall c t ts, sees x c t -> saw x (Some t) ts -> saw x c (t :: ts).

(** Well-formed streams: the list ends with its only end of file token, the position is in
    it and branches end further on. *)
Definition wfs (x : lex) : Prop :=
  (exists body e, x_toks x = body ++ [e] /\ tyof x e = T_EOF /\ Forall (fun t => tyof x t <> T_EOF) body) /\
  NoDup (x_toks x) /\
  (forall c, x_cur x = Some c -> In c (x_toks x)) /\
  (forall a t r, x_toks x = a ++ t :: r -> flagged F_BRANCH x t = true ->
    exists e, end_of_branch x t = Some e /\ In e (t :: r)).

(** Difference between the numbers of tokens of two types. *)
Definition balance (x : lex) (lt rt : ttype) (ts : list id) : Z :=
  (Z.of_nat (length (filter (fun t => ttype_eqb (tyof x t) lt) ts)) -
   Z.of_nat (length (filter (fun t => ttype_eqb (tyof x t) rt) ts)))%Z.
Definition no_eof (x : lex) (ts : list id) : Prop := Forall (fun t => tyof x t <> T_EOF) ts.

(** ** Frame *)
Definition frame (x y : lex) : Prop :=
  x_heap y = x_heap x /\ x_next y = x_next x /\ x_toks y = x_toks x /\ x_peek y = x_peek x /\
  (x_peek x > 0 -> x_log y = x_log x) /\ (x_bad x = true -> x_bad y = true).
Lemma frame_refl : forall x, frame x x. Proof. repeat split; auto. Qed.
Lemma frame_trans : forall x y z, frame x y -> frame y z -> frame x z.
Proof.
  intros x y z (A1 & A2 & A3 & A4 & A5 & A6) (B1 & B2 & B3 & B4 & B5 & B6). repeat split; try congruence.
  - intros H. rewrite B5, A5; auto. lia.
  - auto.
Qed.

Ltac fr := repeat split; simpl; auto.
Lemma frame_cur : forall x c, frame x (set_cur c x). Proof. fr. Qed.
Lemma frame_bad : forall x, frame x (set_bad x). Proof. fr. Qed.
Lemma frame_pop : forall x, frame x (snd (lexer_pop x)).
Proof.
  intros x. unfold lexer_pop. destruct (x_cur x) as [c|]; [|destruct (x_toks x); simpl; fr].
  destruct (ttype_eqb (tyof x c) T_EOF); [fr|]. destruct (_ && _); [fr|].
  destruct (next_of (x_toks x) c) as [t|]; [|fr]. destruct (flagged F_BRANCH x t); [|fr].
  destruct (x_peek x =? 0); [fr|]. destruct (end_of_branch x t); fr.
Qed.

Definition same_or_bad (x y : lex) : Prop := y = x \/ y = set_bad x.
Lemma look_same : forall x y, frame (set_peek (S (x_peek x)) x) y ->
  same_or_bad x (lexer_peek_leave (x_cur x, x_err x) y).
Proof.
  intros [h n tk c e p lg b] [h' n' tk' c' e' p' lg' b'] (H1 & H2 & H3 & H4 & H5 & H6).
  unfold lexer_peek_leave in *. simpl in *. subst. rewrite H5 by lia. unfold set_peek, same_or_bad, set_bad, set_err, set_cur. simpl.
  destruct b'; [right|]; auto. destruct b; auto. specialize (H6 eq_refl). discriminate.
Qed.
Lemma sob_frame : forall x y, same_or_bad x y -> frame x y.
Proof. intros x y [->| ->]; fr. Qed.

Lemma peek_same : forall x, same_or_bad x (snd (lexer_peek x)).
Proof.
  intros x. unfold lexer_peek. simpl. destruct (lexer_pop (set_peek (S (x_peek x)) x)) as [r y] eqn:E. simpl.
  apply look_same. pose proof (frame_pop (set_peek (S (x_peek x)) x)) as H. rewrite E in H. exact H.
Qed.
Lemma peek_if_same : forall ty x, same_or_bad x (snd (lexer_peek_if ty x)).
Proof.
  intros. pose proof (peek_same x) as H. unfold lexer_peek_if. destruct (lexer_peek x) as [[t|] y]; simpl in *; auto.
Qed.
Lemma peek_if_flags_same : forall f x, same_or_bad x (snd (lexer_peek_if_flags f x)).
Proof.
  intros. pose proof (peek_same x) as H. unfold lexer_peek_if_flags. destruct (lexer_peek x) as [[t|] y]; simpl in *; auto.
Qed.
Lemma frame_pair : forall fuel lt rt p x, frame x (snd (pair_loop fuel lt rt p x)).
Proof.
  induction fuel as [|fuel IH]; intros lt rt p x; cbn [pair_loop]; [apply frame_bad|].
  pose proof (frame_pop x) as H. destruct (lexer_pop x) as [[t|] y]; simpl in H; auto.
  destruct (ttype_eqb (tyof y t) T_EOF); auto. cbv zeta. destruct (_ =? 0)%Z; auto. eapply frame_trans; eauto.
Qed.
Lemma sob_trans : forall x y z, same_or_bad x y -> same_or_bad y z -> same_or_bad x z.
Proof. intros x y z [-> | ->] [-> | ->]; unfold same_or_bad; auto. Qed.
Lemma peek_if_pair_same : forall lt rt x, same_or_bad x (snd (lexer_peek_if_pair lt rt x)).
Proof.
  intros. pose proof (peek_if_same lt x) as H. unfold lexer_peek_if_pair. destruct (lexer_peek_if lt x) as [[t|] y]; cbn [fst snd lexer_peek_enter] in *; auto.
  pose proof (frame_pair (S (length (x_toks x))) lt rt 0 (set_peek (S (x_peek y)) y)) as F.
  destruct (pair_loop (S (length (x_toks x))) lt rt 0 (set_peek (S (x_peek y)) y)) as [[r p] z] eqn:E. cbn [snd fst] in *.
  eapply sob_trans; [exact H|]. apply look_same in F. destruct (0 <? p)%Z; exact F.
Qed.
Lemma frame_until : forall fuel ty x, frame x (snd (until_loop fuel ty x)).
Proof.
  induction fuel as [|fuel IH]; intros ty x; cbn [until_loop]; [apply frame_bad|].
  pose proof (frame_pop x) as H. destruct (lexer_pop x) as [[t|] y]; simpl in H; auto.
  destruct (ttype_eqb (tyof y t) T_EOF); auto. destruct (ttype_eqb (tyof y t) ty); auto. eapply frame_trans; eauto.
Qed.
Lemma peek_until_same : forall ty x, same_or_bad x (snd (lexer_peek_until ty x)).
Proof.
  intros. unfold lexer_peek_until. cbn [lexer_peek_enter].
  pose proof (frame_until (S (length (x_toks (set_peek (S (x_peek x)) x)))) ty (set_peek (S (x_peek x)) x)) as F. fold (lexer_until ty (set_peek (S (x_peek x)) x)) in F.
  destruct (lexer_until ty (set_peek (S (x_peek x)) x)) as [r y]. apply look_same; auto.
Qed.
Lemma frame_not_nested : forall fuel ty stop n x, frame x (snd (not_nested_loop fuel ty stop n x)).
Proof.
  induction fuel as [|fuel IH]; intros ty stop n x; cbn [not_nested_loop]; [apply frame_bad|].
  pose proof (frame_pop x) as H. destruct (lexer_pop x) as [[t|] y]; simpl in H; auto.
  destruct (_ || _); auto. cbv zeta. destruct (_ && _); auto. eapply frame_trans; eauto.
Qed.
Lemma peek_not_nested_same : forall ty stop x, same_or_bad x (snd (lexer_peek_until_not_nested ty stop x)).
Proof.
  intros. unfold lexer_peek_until_not_nested. cbn [lexer_peek_enter].
  pose proof (frame_not_nested (S (length (x_toks x))) ty stop 0 (set_peek (S (x_peek x)) x)) as F.
  destruct (not_nested_loop (S (length (x_toks x))) ty stop 0 (set_peek (S (x_peek x)) x)) as [[r|] y]; apply look_same; auto.
Qed.
Lemma peek_prefix_same : forall f x, same_or_bad x (snd (lexer_peek_if_prefix_flags f x)).
Proof.
  intros. left. unfold lexer_peek_if_prefix_flags. destruct (lexer_back x); auto. destruct (next_of _ _); auto.
Qed.
Lemma frame_if : forall ty x, frame x (snd (lexer_if ty x)).
Proof.
  intros ty x. pose proof (frame_pop x) as H. unfold lexer_if. destruct (lexer_pop x) as [[t|] y]; simpl in H; auto.
  destruct (ttype_eqb (tyof y t) ty); auto.
Qed.
Lemma frame_error : forall c x, frame x (lexer_error c x).
Proof.
  intros c x. unfold lexer_error. cbv zeta. destruct (0 <? x_peek (set_err true x)) eqn:E; [fr|].
  apply Nat.ltb_ge in E. simpl in E. fr. lia.
Qed.

Lemma frame_run : forall p x, frame x (run p x).
Proof.
  induction p; intros x; cbn [run]; try (apply frame_refl); try (apply frame_pop); try (apply frame_if);
    try (apply frame_until); try (apply frame_error).
  - pose proof (peek_if_flags_same f x) as H. unfold lexer_if_flags. destruct (lexer_peek_if_flags f x) as [[t|] y]; simpl in *; [|apply sob_frame; auto].
    eapply frame_trans; [apply sob_frame; eauto|]. apply frame_pop.
  - pose proof (peek_if_pair_same lt rt x) as H. unfold lexer_if_pair. destruct (lexer_peek_if_pair lt rt x) as [[[l e]|] y]; simpl in *; [|apply sob_frame; auto].
    eapply frame_trans; [apply sob_frame; eauto|]. apply frame_cur.
  - pose proof (frame_if ty x) as H. unfold lexer_expect. destruct (lexer_if ty x) as [[t|] y]; simpl in *; auto.
    pose proof (peek_same y) as K. destruct (lexer_peek y) as [t z]. simpl in *. apply sob_frame in K.
    eapply frame_trans; [exact H|]. eapply frame_trans; [exact K|]. unfold lexer_expect_error.
    destruct (match lexer_back z with Some c => _ | None => _ end); [fr|]. destruct (x_err z); [fr|]. destruct t; [apply frame_error|fr].
  - fr.
  - unfold lexer_seek_after. destruct (next_of (x_toks x) tk); simpl; fr.
  - apply sob_frame, peek_same.
  - apply sob_frame, peek_if_same.
  - apply sob_frame, peek_if_flags_same.
  - apply sob_frame, peek_if_pair_same.
  - apply sob_frame, peek_prefix_same.
  - apply sob_frame, peek_until_same.
  - apply sob_frame, peek_not_nested_same.
  - eapply frame_trans; eauto.
  - destruct (c x); auto.
  - apply sob_frame, look_same, IHp.
Qed.

Lemma run_look : forall p x, same_or_bad x (run (PLook p) x).
Proof. intros p x. cbn [run]. apply look_same, frame_run. Qed.

(** ** Lists *)
Lemma next_split : forall a c r, ~ In c a -> next_of (a ++ c :: r) c = hd_error r.
Proof.
  induction a as [|y a IH]; intros c r H; cbn [app next_of].
  - rewrite Nat.eqb_refl. auto.
  - destruct (y =? c) eqn:E; [apply Nat.eqb_eq in E; subst; exfalso; apply H; left; auto|].
    apply IH. intros K. apply H. right; auto.
Qed.
Lemma next_inv : forall l c t, next_of l c = Some t -> exists a r, l = a ++ c :: t :: r.
Proof.
  induction l as [|y l IH]; intros c t H; cbn [next_of] in H; [discriminate|].
  destruct (y =? c) eqn:E.
  - apply Nat.eqb_eq in E. subst y. destruct l; inv H. exists [], l. auto.
  - destruct (IH _ _ H) as (a & r & ->). exists (y :: a), r. auto.
Qed.
Lemma split_unique : forall (a : list id) c r a' r', NoDup (a ++ c :: r) -> a ++ c :: r = a' ++ c :: r' -> a = a' /\ r = r'.
Proof.
  induction a as [|y a IH]; intros c r [|y' a'] r' Hd E; cbn in E; inv E; auto.
  - exfalso. inv Hd. apply H1. apply in_or_app. right; left; auto.
  - exfalso. inv Hd. apply H1. apply in_or_app. right; left; auto.
  - inv Hd. destruct (IH _ _ _ _ H3 H1). subst. auto.
Qed.

Lemma branch_last_end : forall h fuel p e, branch_last h fuel p = Some e -> cond_end h p e.
Proof.
  induction fuel as [|f IH]; intros p e H; cbn [branch_last] in H; [discriminate|].
  destruct (n_nx (h p)) as [q|] eqn:E; [eapply ce_next; eauto|apply ce_last; auto].
Qed.
Lemma cond_end_fun : forall h p e e', cond_end h p e -> cond_end h p e' -> e = e'.
Proof.
  intros h p e e' H. revert e'. induction H; intros e' H'; inv H'; try congruence.
  rewrite H in H1. inv H1. auto.
Qed.

(** ** Popping *)
Section Stream.
Variable x : lex.
Hypothesis W : wfs x.

(** Number of tokens left after [c]. *)
Fixpoint left_after (l : list id) (c : id) : nat :=
  match l with [] => 0 | y :: r => if y =? c then length r else left_after r c end.
Definition remain (c : option id) : nat :=
  match c with None => length (x_toks x) | Some c => left_after (x_toks x) c end.
Lemma left_split : forall a c r, ~ In c a -> left_after (a ++ c :: r) c = length r.
Proof.
  induction a as [|y a IH]; intros c r H; cbn [app left_after].
  - rewrite Nat.eqb_refl. auto.
  - destruct (y =? c) eqn:E; [apply Nat.eqb_eq in E; subst; exfalso; apply H; left; auto|].
    apply IH. intros K. apply H. right; auto.
Qed.
Lemma nodup_split : forall (a : list id) c r, NoDup (a ++ c :: r) -> ~ In c a /\ ~ In c r.
Proof.
  intros a c r H. apply NoDup_remove_2 in H. split; intros K; apply H; apply in_or_app; auto.
Qed.

Lemma toks_eof : forall a c r, x_toks x = a ++ c :: r -> tyof x c = T_EOF -> r = [].
Proof.
  intros a c r H Hc. destruct W as ((body & e & E & He & Hb) & _). rewrite E in H.
  destruct r as [|z r] using rev_ind; auto. exfalso.
  assert (K : body = a ++ c :: r).
  { change (c :: r ++ [z]) with ((c :: r) ++ [z]) in H. rewrite app_assoc in H. apply app_inj_tail in H. tauto. }
  rewrite Forall_forall in Hb. apply (Hb c); auto. rewrite K. apply in_or_app. right; left; auto.
Qed.
Lemma not_eof_next : forall a c r, x_toks x = a ++ c :: r -> tyof x c <> T_EOF -> r <> [].
Proof.
  intros a c r H Hc ->. destruct W as ((body & e & E & He & Hb) & _). rewrite E in H. apply app_inj_tail in H. destruct H; subst. auto.
Qed.

Definition here (c : option id) : Prop := forall t, c = Some t -> In t (x_toks x).
Definition at_end (c : option id) : bool := match c with Some c => ttype_eqb (tyof x c) T_EOF | None => false end.

(** The stream with the position moved, while looking ahead. *)
Definition at_ (n : nat) (c : option id) : lex := set_peek (S n) (set_cur c x).

Lemma pop_peek : forall n c, here c ->
  exists t, lexer_pop (at_ n c) = (Some t, at_ n (Some t)) /\ sees x c t /\ In t (x_toks x) /\
    (at_end c = true \/ remain (Some t) < remain c).
Proof.
  intros n c Hc. pose proof W as ((body & e & E & He & Hb) & Hd & _ & Hbr). unfold lexer_pop. cbn [at_ x_cur set_peek set_cur x_toks].
  destruct c as [c|].
  - assert (Hin := Hc c eq_refl). destruct (in_split _ _ Hin) as (a & r & Es).
    change (tyof (at_ n (Some c)) c) with (tyof x c).
    destruct (ttype_eqb (tyof x c) T_EOF) eqn:Ee.
    + exists c. split; auto. split; [|split; auto].
      exists c. unfold after. rewrite Ee. split; auto. rewrite andb_false_r. reflexivity.
    + change (x_peek (at_ n (Some c))) with (S n). cbn [Nat.eqb andb].
      destruct r as [|t r]; [apply ttype_eqb_neq in Ee; exfalso; eapply not_eof_next; eauto|].
      assert (Hd' := Hd). rewrite Es in Hd'. destruct (nodup_split _ _ _ Hd') as (Hna & Hnr).
      assert (Hn : next_of (x_toks x) c = Some t) by (rewrite Es, next_split; auto). rewrite Hn.
      change (flagged F_BRANCH (at_ n (Some c)) t) with (flagged F_BRANCH x t).
      assert (Ha : after x (Some c) t) by (unfold after; rewrite Ee; exists a, r; auto).
      assert (Hrc : remain (Some c) = S (length r)) by (unfold remain; rewrite Es, left_split; auto).
      assert (Es' : x_toks x = (a ++ [c]) ++ t :: r) by (rewrite <- app_assoc; auto).
      assert (Hd2 := Hd). rewrite Es' in Hd2. destruct (nodup_split _ _ _ Hd2) as (Hta & Htr).
      destruct (flagged F_BRANCH x t) eqn:Ef.
      * destruct (Hbr _ _ _ Es' Ef) as (q & Hq & Hqin).
        change (end_of_branch (at_ n (Some c)) t) with (end_of_branch x t). rewrite Hq. exists q. split; auto.
        split; [|split].
        -- exists t. split; auto. rewrite Ef, Ee. cbn. unfold end_of_branch in Hq.
           destruct (branch_find (x_heap x) t) as [p|]; [|discriminate]. exists p. split; auto. eapply branch_last_end; eauto.
        -- rewrite Es'. apply in_or_app. right; auto.
        -- right. rewrite Hrc. destruct Hqin as [<-|Hq2].
           ++ unfold remain. rewrite Es', left_split; auto.
           ++ destruct (in_split _ _ Hq2) as (u & v & Eu). unfold remain. rewrite Es', Eu.
              assert (Es2 : (a ++ [c]) ++ t :: u ++ q :: v = (a ++ [c] ++ t :: u) ++ q :: v) by (rewrite <- !app_assoc; auto).
              rewrite Es2, left_split. rewrite app_length. simpl. lia.
              rewrite Es', Eu, Es2 in Hd. apply nodup_split in Hd. tauto.
      * exists t. split; auto. split; [|split].
        -- exists t. split; auto. rewrite Ef. reflexivity.
        -- rewrite Es'. apply in_or_app. right; left; auto.
        -- right. rewrite Hrc. unfold remain. rewrite Es', left_split; auto.
  - destruct (x_toks x) as [|t r] eqn:Et; [destruct body; discriminate|].
    exists t. split; auto. split; [|split].
    + exists t. split; [exists r; auto|]. rewrite andb_false_r. reflexivity.
    + left; auto.
    + right. unfold remain. rewrite Et. cbn [left_after length]. rewrite Nat.eqb_refl. lia.
Qed.

Lemma after_fun : forall c t t', after x c t -> after x c t' -> t = t'.
Proof.
  intros [c|] t t'; unfold after.
  - destruct (ttype_eqb (tyof x c) T_EOF); [congruence|]. intros (a & r & E) (a' & r' & E').
    destruct W as (_ & Hd & _). rewrite E in E', Hd. destruct (split_unique _ _ _ _ _ Hd E') as (_ & K). inv K. auto.
  - intros (r & E) (r' & E'). congruence.
Qed.
Lemma sees_fun : forall c t t', sees x c t -> sees x c t' -> t = t'.
Proof.
  intros c t t' (a & Ha & H) (a' & Ha' & H'). rewrite <- (after_fun _ _ _ Ha Ha') in H'.
  destruct (flagged F_BRANCH x a && _); [|congruence].
  destruct H as (p & P1 & P2), H' as (p' & P1' & P2'). rewrite P1 in P1'. inv P1'. eapply cond_end_fun; eauto.
Qed.
Lemma saw_inv : forall c t ts, saw x c (t :: ts) -> sees x c t /\ saw x (Some t) ts.
Proof. intros c t ts H. inversion H. auto. Qed.
Lemma saw_fun : forall c ts ts', saw x c ts -> saw x c ts' -> length ts = length ts' -> ts = ts'.
Proof.
  intros c ts ts' H. revert ts'. induction H; intros ts' H' L; destruct ts' as [|t' ts']; try discriminate; auto.
  apply saw_inv in H'. destruct H' as (H1 & H2). pose proof (sees_fun _ _ _ H H1). subst t'. f_equal. apply IHsaw; auto.
Qed.
Lemma saw_app : forall ts c ts', saw x c (ts ++ ts') -> saw x c ts.
Proof. induction ts; intros c ts' H; [constructor|]. inv H. constructor; eauto. Qed.

(** ** Bracket pairs *)
Lemma remain_end : forall c, here c -> at_end c = true -> remain c = 0.
Proof.
  intros [c|] Hc He; [|discriminate]. cbn in He. apply ttype_eqb_eq in He. assert (Hin := Hc c eq_refl).
  destruct (in_split _ _ Hin) as (a & r & Es). pose proof (toks_eof _ _ _ Es He) as ->.
  destruct W as (_ & Hd & _). unfold remain. rewrite Es in *. apply nodup_split in Hd. rewrite left_split; tauto.
Qed.

Definition delta (lt rt : ttype) (t : id) : Z :=
  ((if ttype_eqb (tyof x t) lt then 1 else 0) - (if ttype_eqb (tyof x t) rt then 1 else 0))%Z.
Lemma balance_cons : forall lt rt t ts, balance x lt rt (t :: ts) = (delta lt rt t + balance x lt rt ts)%Z.
Proof.
  intros. unfold balance, delta. cbn [filter]. destruct (ttype_eqb (tyof x t) lt), (ttype_eqb (tyof x t) rt); cbn [length]; lia.
Qed.

Lemma pair_loop_spec : forall lt rt n fuel c p, here c -> remain c < fuel -> (at_end c = false \/ fuel > 0) ->
  exists ts t p', pair_loop fuel lt rt p (at_ n c) = (Some t, p', at_ n (Some t)) /\
    saw x c (ts ++ [t]) /\ no_eof x ts /\ In t (x_toks x) /\
    (forall a b, ts = a ++ b -> a <> [] -> (p + balance x lt rt a <> 0)%Z) /\
    ((tyof x t = T_EOF /\ p' = p + balance x lt rt ts)%Z \/
     (tyof x t <> T_EOF /\ p' = 0 /\ p + balance x lt rt (ts ++ [t]) = 0)%Z).
Proof.
  intros lt rt n. induction fuel as [|fuel IH]; intros c p Hc Hf _; [lia|].
  destruct (pop_peek n c Hc) as (t & E1 & E2 & E3 & E4). cbn [pair_loop]. rewrite E1. cbv zeta.
  change (tyof (at_ n (Some t)) t) with (tyof x t).
  destruct (ttype_eqb (tyof x t) T_EOF) eqn:Ee.
  - exists [], t, p. split; auto. split; [repeat constructor; auto|]. split; [constructor|]. split; auto.
    split; [intros a b H K; destruct a; [congruence|discriminate]|]. left. apply ttype_eqb_eq in Ee. split; auto.
    unfold balance. simpl. lia.
  - assert (Ene : tyof x t <> T_EOF) by (apply ttype_eqb_neq; auto).
    set (p2 := if ttype_eqb (tyof x t) rt then _ else _).
    assert (Hp2 : p2 = (p + delta lt rt t)%Z).
    { unfold p2, delta. destruct (ttype_eqb (tyof x t) lt), (ttype_eqb (tyof x t) rt); lia. }
    clearbody p2. destruct (p2 =? 0)%Z eqn:Ep.
    + apply Z.eqb_eq in Ep. exists [], t, p2. split; auto. split; [repeat constructor; auto|]. split; [constructor|]. split; auto.
      split; [intros a b H K; destruct a; [congruence|discriminate]|]. right. split; auto. split; [lia|].
      cbn [app]. rewrite balance_cons. unfold balance at 1. simpl. lia.
    + apply Z.eqb_neq in Ep. assert (Ht : here (Some t)) by (intros u Hu; inv Hu; auto).
      assert (Hend : at_end c = false).
      { destruct (at_end c) eqn:K; auto. exfalso. destruct c as [c|]; [|discriminate]. cbn in K.
        destruct E2 as (t0 & A & B). unfold after in A. rewrite K in *. subst t0. rewrite andb_false_r in B. subst t. congruence. }
      destruct E4 as [E4|E4]; [congruence|].
      destruct (IH (Some t) p2 Ht) as (ts & u & p' & F1 & F2 & F3 & F4 & F5 & F6); [lia|left; auto|].
      exists (t :: ts), u, p'. split; [exact F1|]. split; [constructor; auto|]. split; [constructor; auto|]. split; auto. split.
      * intros a b H K. destruct a as [|a1 a]; [congruence|]. injection H as <- H. rewrite balance_cons.
        destruct a as [|a2 a]; [unfold balance; simpl; lia|]. specialize (F5 (a2 :: a) b H). rewrite Hp2 in F5. intros Q. apply F5; [discriminate|lia].
      * cbn [app]. rewrite !balance_cons. destruct F6 as [(G1 & G2) | (G1 & G2 & G3)]; [left|right]; repeat split; auto; lia.
Qed.

Lemma leave_at : forall s n y, lexer_peek_leave s (at_ n y) = set_err (snd s) (set_cur (fst s) (set_peek n x)).
Proof. intros. unfold lexer_peek_leave, at_. cbn. reflexivity. Qed.

Lemma enter_at : snd (lexer_peek_enter x) = at_ (x_peek x) (x_cur x).
Proof. unfold at_. destruct x; reflexivity. Qed.
Lemma leave_x : forall y, lexer_peek_leave (x_cur x, x_err x) (at_ (x_peek x) y) = x.
Proof. intros. rewrite leave_at. destruct x; reflexivity. Qed.
Lemma here_cur : here (x_cur x).
Proof. destruct W as (_ & _ & H & _). exact H. Qed.

Lemma peek_spec : exists t, lexer_peek x = (Some t, x) /\ sees x (x_cur x) t /\ In t (x_toks x).
Proof.
  destruct (pop_peek (x_peek x) (x_cur x) here_cur) as (t & E1 & E2 & E3 & _).
  exists t. split; auto. unfold lexer_peek. cbn [lexer_peek_enter]. change (set_peek (S (x_peek x)) x) with (snd (lexer_peek_enter x)).
  rewrite enter_at, E1, leave_x. auto.
Qed.
Lemma peek_if_spec : forall ty t, lexer_peek_if ty x = (Some t, x) <-> (sees x (x_cur x) t /\ tyof x t = ty).
Proof.
  intros ty t. destruct peek_spec as (u & E & S1 & S2). unfold lexer_peek_if. rewrite E. split.
  - intros H. destruct (ttype_eqb (tyof x u) ty) eqn:K; inv H. apply ttype_eqb_eq in K. auto.
  - intros (H1 & H2). rewrite (sees_fun _ _ _ H1 S1) in *. apply ttype_eqb_eq in H2. rewrite H2. auto.
Qed.
Lemma peek_if_total : forall ty, (exists t, lexer_peek_if ty x = (Some t, x)) \/ lexer_peek_if ty x = (None, x).
Proof.
  intros ty. destruct peek_spec as (u & E & _). unfold lexer_peek_if. rewrite E. destruct (ttype_eqb (tyof x u) ty); eauto.
Qed.

Definition pair_of (lt rt : ttype) (l r : id) : Prop :=
  exists ts, saw x (x_cur x) ts /\ hd_error ts = Some l /\ hd_error (rev ts) = Some r /\ tyof x l = lt /\ no_eof x ts /\
    balance x lt rt ts = 0%Z /\ (forall a b, ts = a ++ b -> a <> [] -> b <> [] -> balance x lt rt a <> 0%Z).

Lemma remain_le : forall c, remain c <= length (x_toks x).
Proof.
  intros [c|]; unfold remain; auto. generalize (x_toks x). induction l as [|y l IH]; cbn; auto. destruct (y =? c); cbn; lia.
Qed.

Lemma peek_if_pair_spec : forall lt rt, lt <> T_EOF ->
  (exists l r, lexer_peek_if_pair lt rt x = (Some (l, Some r), x) /\ pair_of lt rt l r) \/
  (lexer_peek_if_pair lt rt x = (None, x) /\ forall l r, ~ pair_of lt rt l r).
Proof.
  intros lt rt Hlt. unfold lexer_peek_if_pair.
  destruct (peek_if_total lt) as [(l & E)|E]; rewrite E.
  2:{ right. split; auto. intros l r (ts & S & Hh & _ & Ht & _). destruct ts as [|t ts]; inv Hh. apply saw_inv in S. destruct S.
      assert (K : lexer_peek_if (tyof x l) x = (Some l, x)) by (apply peek_if_spec; auto). congruence. }
  apply peek_if_spec in E. destruct E as (S1 & S2). cbn [lexer_peek_enter].
  change (set_peek (S (x_peek x)) x) with (snd (lexer_peek_enter x)). rewrite enter_at.
  destruct (pair_loop_spec lt rt (x_peek x) (S (length (x_toks x))) (x_cur x) 0 here_cur) as (ts & t & p' & F1 & F2 & F3 & F4 & F5 & F6).
  { pose proof (remain_le (x_cur x)). lia. } { right; lia. }
  rewrite F1. cbn [fst snd]. rewrite leave_x.
  destruct F6 as [(G1 & G2) | (G1 & G2 & G3)].
  - destruct ts as [|t1 ts].
    { apply saw_inv in F2. destruct F2 as (F2 & _). rewrite (sees_fun _ _ _ S1 F2) in S2. congruence. }
    destruct (0 <? p')%Z eqn:Ep.
    + right. split; auto. intros l' r' (us & U1 & U2 & U3 & U4 & U5 & U6 & U7).
      assert (Hlen : length us <= length (t1 :: ts)).
      { destruct (le_lt_dec (length us) (length (t1 :: ts))) as [H|H]; auto. exfalso.
        assert (K : firstn (S (length (t1 :: ts))) us = (t1 :: ts) ++ [t]).
        { apply (saw_fun (x_cur x)); auto.
          - apply (saw_app _ _ (skipn (S (length (t1 :: ts))) us)). rewrite firstn_skipn. auto.
          - rewrite firstn_length, app_length. cbn [length] in *. lia. }
        assert (Hin : In t us). { rewrite <- (firstn_skipn (S (length (t1 :: ts))) us), K. apply in_or_app. left. apply in_or_app. right; left; auto. }
        unfold no_eof in U5. rewrite Forall_forall in U5. apply (U5 t); auto. }
      assert (K : us = firstn (length us) (t1 :: ts)).
      { apply (saw_fun (x_cur x)); auto.
        - apply (saw_app _ _ (skipn (length us) (t1 :: ts) ++ [t])). rewrite app_assoc, firstn_skipn. auto.
        - rewrite firstn_length. lia. }
      apply (F5 us (skipn (length us) (t1 :: ts))).
      * rewrite K at 1. symmetry. apply firstn_skipn.
      * destruct us; discriminate.
      * lia.
    + (* the balance is positive: the first token opens a pair and no prefix is balanced *)
      exfalso. apply Z.ltb_ge in Ep.
      assert (Et1 : t1 = l) by (apply saw_inv in F2; eapply sees_fun; [apply F2|auto]). subst t1.
      assert (Hpos : forall m a b, length a = m -> l :: ts = a ++ b -> a <> [] -> (0 < 0 + balance x lt rt a)%Z).
      { induction m as [m IHm] using lt_wf_ind. intros a b Hm Ha Hne. destruct a as [|z a] using rev_ind; [congruence|]. clear IHa.
        destruct a as [|y a].
        - cbn [app] in *. injection Ha as <- <-. specialize (F5 [l] ts eq_refl). assert (F5' := F5 ltac:(discriminate)).
          rewrite balance_cons in *. unfold delta in *. rewrite S2, ttype_eqb_refl in *. unfold balance in *. cbn [filter length] in *.
          destruct (ttype_eqb lt rt); lia.
        - pose proof (F5 ((y :: a) ++ [z]) b Ha ltac:(discriminate)) as Q.
          assert (P : (0 < 0 + balance x lt rt (y :: a))%Z).
          { apply (IHm (length (y :: a))) with (b := z :: b); auto; [rewrite <- Hm, app_length; cbn [length]; lia|rewrite Ha, <- app_assoc; auto|discriminate]. }
          assert (R : balance x lt rt ((y :: a) ++ [z]) = (balance x lt rt (y :: a) + delta lt rt z)%Z).
          { unfold balance. rewrite !filter_app, !app_length. unfold delta. cbn [filter]. destruct (ttype_eqb (tyof x z) lt), (ttype_eqb (tyof x z) rt); cbn [length]; lia. }
          unfold delta in R. destruct (ttype_eqb (tyof x z) lt), (ttype_eqb (tyof x z) rt); lia. }
      specialize (Hpos _ (l :: ts) [] eq_refl ltac:(rewrite app_nil_r; auto) ltac:(discriminate)). lia.
  - subst p'. cbn [Z.ltb Z.compare]. left. exists l, t. split; auto.
    exists (ts ++ [t]). split; auto. split; [|split; [|split; [auto|split; [|split]]]].
    + destruct ts as [|t1 ts]; apply saw_inv in F2; cbn; f_equal; eapply sees_fun; apply F2 || auto.
    + rewrite rev_app_distr. reflexivity.
    + unfold no_eof. apply Forall_app. split; auto.
    + lia.
    + intros a b H Ha Hb K. destruct b as [|z b] using rev_ind; [congruence|]. clear IHb. rewrite app_assoc in H. apply app_inj_tail in H. destruct H as (H & _).
      apply (F5 a b H Ha). lia.
Qed.

(** ** Searching *)
Lemma until_spec : forall ty n fuel c, here c -> remain c < fuel ->
  exists ts t, saw x c (ts ++ [t]) /\ In t (x_toks x) /\
    Forall (fun u => tyof x u <> T_EOF /\ tyof x u <> ty) ts /\
    ((tyof x t = T_EOF /\ until_loop fuel ty (at_ n c) = (None, at_ n (Some t))) \/
     (tyof x t <> T_EOF /\ tyof x t = ty /\ until_loop fuel ty (at_ n c) = (Some t, at_ n (Some t)))).
Proof.
  intros ty n. induction fuel as [|fuel IH]; intros c Hc Hf; [lia|].
  destruct (pop_peek n c Hc) as (t & E1 & E2 & E3 & E4). cbn [until_loop]. rewrite E1.
  change (tyof (at_ n (Some t)) t) with (tyof x t).
  destruct (ttype_eqb (tyof x t) T_EOF) eqn:Ee.
  - exists [], t. apply ttype_eqb_eq in Ee. split; [repeat constructor; auto|]. split; [exact E3|]. split; [constructor|left; auto].
  - assert (Ene : tyof x t <> T_EOF) by (apply ttype_eqb_neq; auto).
    destruct (ttype_eqb (tyof x t) ty) eqn:Et.
    + apply ttype_eqb_eq in Et. exists [], t. split; [repeat constructor; auto|]. split; [exact E3|]. split; [constructor|right; auto].
    + apply ttype_eqb_neq in Et. assert (Ht : here (Some t)) by (intros u Hu; inv Hu; auto).
      assert (Hend : at_end c = false).
      { destruct (at_end c) eqn:K; auto. exfalso. destruct c as [c|]; [|discriminate]. cbn in K.
        destruct E2 as (t0 & A & B). unfold after in A. rewrite K in *. subst t0. rewrite andb_false_r in B. subst t. congruence. }
      destruct E4 as [E4|E4]; [congruence|].
      destruct (IH (Some t) Ht) as (ts & u & F1 & F2 & F3 & F4); [lia|].
      exists (t :: ts), u. split; [constructor; auto|]. split; [exact F2|]. split; [constructor; auto|exact F4].
Qed.

Definition opens (t : id) : bool := ttype_eqb (tyof x t) T_LPAREN || ttype_eqb (tyof x t) T_LBRACE.
Definition closes (t : id) : bool := ttype_eqb (tyof x t) T_RPAREN || ttype_eqb (tyof x t) T_RBRACE.
Definition nesting (ts : list id) : Z := (Z.of_nat (length (filter opens ts)) - Z.of_nat (length (filter closes ts)))%Z.
Definition stops (stop : option id) (t : id) : Prop := stop = Some t \/ tyof x t = T_EOF.
(** [t] is the first token of a type outside of brackets, before the stop. *)
Definition found (ty : ttype) (stop : option id) (ts : list id) (t : id) : Prop :=
  saw x (x_cur x) (ts ++ [t]) /\ Forall (fun u => ~ stops stop u) (ts ++ [t]) /\
  tyof x t = ty /\ nesting (ts ++ [t]) = 0%Z /\
  (forall a u b, ts = a ++ u :: b -> tyof x u = ty -> nesting (a ++ [u]) <> 0%Z).

Lemma oc_excl : forall t, opens t = true -> closes t = false.
Proof.
  intros t H. unfold opens, closes in *. apply orb_true_iff in H. destruct H as [H|H]; apply ttype_eqb_eq in H; rewrite H; reflexivity.
Qed.
Definition step1 (t : id) : Z := (if opens t then 1 else if closes t then -1 else 0)%Z.
Lemma nesting_cons : forall t ts, nesting (t :: ts) = (step1 t + nesting ts)%Z.
Proof.
  intros. unfold nesting, step1. cbn [filter]. destruct (opens t) eqn:E; [rewrite (oc_excl _ E); cbn [length]; lia|].
  destruct (closes t); cbn [length]; lia.
Qed.

Lemma nn_loop_spec : forall ty stop n fuel c p, here c -> remain c < fuel ->
  exists ts t, saw x c (ts ++ [t]) /\ In t (x_toks x) /\
    Forall (fun u => ~ stops stop u) ts /\
    (forall a u b, ts = a ++ u :: b -> tyof x u = ty -> (p + nesting (a ++ [u]) <> 0)%Z) /\
    ((stops stop t /\ not_nested_loop fuel ty stop p (at_ n c) = (None, at_ n (Some t))) \/
     (~ stops stop t /\ tyof x t = ty /\ (p + nesting (ts ++ [t]) = 0)%Z /\
      not_nested_loop fuel ty stop p (at_ n c) = (Some t, at_ n (Some t)))).
Proof.
  intros ty stop n. induction fuel as [|fuel IH]; intros c p Hc Hf; [lia|].
  destruct (pop_peek n c Hc) as (t & E1 & E2 & E3 & E4). cbn [not_nested_loop]. rewrite E1. cbv zeta.
  change (tyof (at_ n (Some t)) t) with (tyof x t).
  destruct (_ || ttype_eqb (tyof x t) T_EOF) eqn:Es.
  - assert (Hs : stops stop t).
    { apply orb_true_iff in Es. destruct Es as [Es|Es]; [left|right; apply ttype_eqb_eq; auto].
      destruct stop as [s|]; [|discriminate]. apply Nat.eqb_eq in Es. congruence. }
    exists [], t. split; [repeat constructor; auto|]. split; [exact E3|]. split; [constructor|]. split; [|left; auto].
    intros a u b H. destruct a; discriminate.
  - assert (Hs : ~ stops stop t).
    { intros [->|K]; apply orb_false_iff in Es; destruct Es as (Es1 & Es2); [rewrite Nat.eqb_refl in Es1; discriminate|].
      apply ttype_eqb_neq in Es2. auto. }
    set (n1 := if ttype_eqb (tyof x t) T_LPAREN || _ then _ else _).
    assert (Hn1 : n1 = (p + step1 t)%Z).
    { unfold n1, step1. fold (opens t). fold (closes t). destruct (opens t), (closes t); lia. }
    clearbody n1. destruct (ttype_eqb (tyof x t) ty && (n1 =? 0)%Z) eqn:Et.
    + apply andb_true_iff in Et. destruct Et as (Et & Ez). apply ttype_eqb_eq in Et. apply Z.eqb_eq in Ez.
      exists [], t. split; [repeat constructor; auto|]. split; [exact E3|]. split; [constructor|]. split; [|right; split; auto].
      * intros a u b H. destruct a; discriminate.
      * split; auto. split; auto. cbn [app]. rewrite nesting_cons. unfold nesting. simpl. lia.
    + assert (Ht : here (Some t)) by (intros u Hu; inv Hu; auto).
      assert (Hend : at_end c = false).
      { destruct (at_end c) eqn:K; auto. exfalso. destruct c as [c|]; [|discriminate]. cbn in K.
        destruct E2 as (t0 & A & B). unfold after in A. rewrite K in *. subst t0. rewrite andb_false_r in B. subst t.
        apply Hs. right. apply ttype_eqb_eq; auto. }
      destruct E4 as [E4|E4]; [congruence|].
      destruct (IH (Some t) n1 Ht) as (ts & u & F1 & F2 & F3 & F4 & F5); [lia|].
      exists (t :: ts), u. split; [constructor; auto|]. split; [exact F2|]. split; [constructor; auto|]. split.
      * intros a v b H Hv. destruct a as [|a1 a].
        -- injection H as -> <-. cbn [app]. rewrite nesting_cons. apply ttype_eqb_eq in Hv. rewrite Hv in Et. cbn in Et. apply Z.eqb_neq in Et.
           unfold nesting. simpl. lia.
        -- injection H as <- H. cbn [app]. rewrite nesting_cons. specialize (F4 a v b H Hv). lia.
      * cbn [app]. rewrite nesting_cons. destruct F5 as [(G1 & G2)|(G1 & G2 & G3 & G4)]; [left|right]; repeat split; auto; lia.
Qed.
End Stream.
