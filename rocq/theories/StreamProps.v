(** Properties C10-C12 of the token stream. *)
From Verif Require Import Base TokenModel StreamModel StreamProofs.

(** A stream for the examples: [1] ... tokens; directives for "if" / "else" / "endif" are
    prefixes of the tokens they precede. *)
Definition tk0 (ty : ttype) : node := Node ty 0 1 1 [] 1 true [] [] None None None.
Definition of_list (l : list node) : heap := fun i => nth i l (tk0 T_NONE).
Definition stream (l : list node) (toks : list id) : lex := Lex (of_list l) (length l) toks None false 0 [] false.

(** f ( a, ( b ) ) ; <EOF> *)
Definition ex1 : lex := stream (map tk0 [T_IDENT; T_LPAREN; T_IDENT; T_COMMA; T_LPAREN; T_IDENT; T_RPAREN; T_RPAREN; T_SEMI; T_EOF]) [0;1;2;3;4;5;6;7;8;9].
(** a #if b ; #else c ; #endif d <EOF>: the directives are 5, 6 and 7. *)
Definition ex2 : lex := stream
  [tk0 T_IDENT; set_pre [6] (tk0 T_IDENT); tk0 T_SEMI; set_flags F_BRANCH (set_pre [7] (tk0 T_INT)); tk0 T_SEMI; set_pre [8] (tk0 T_IDENT);
   set_parent (Some 1) (set_nx (Some 7) (tk0 T_CPP_IF));
   set_parent (Some 3) (set_nx (Some 8) (set_pv (Some 6) (tk0 T_CPP_ELSE)));
   set_parent (Some 5) (set_pv (Some 7) (tk0 T_CPP_ENDIF)); tk0 T_EOF] [0;1;2;3;4;5;9].

Lemma not_branch : forall x (l : list id), forallb (fun t => negb (flagged F_BRANCH x t)) l = true -> forall t, In t l -> flagged F_BRANCH x t = false.
Proof. intros x l H t Ht. rewrite forallb_forall in H. specialize (H t Ht). destruct (flagged F_BRANCH x t); auto; discriminate. Qed.
Example ex1_wfs : wfs ex1.
Proof.
  split; [exists [0;1;2;3;4;5;6;7;8], 9; split; [reflexivity|split; [reflexivity|repeat constructor; vm_compute; discriminate]]|].
  split; [repeat constructor; simpl; lia|]. split; [discriminate|].
  intros a t r E H. rewrite (not_branch ex1 [0;1;2;3;4;5;6;7;8;9]) in H; [discriminate|reflexivity|].
  change (x_toks ex1) with [0;1;2;3;4;5;6;7;8;9] in E. rewrite E. apply in_or_app. right; left; auto.
Qed.
Example ex2_wfs : wfs ex2.
Proof.
  split; [exists [0;1;2;3;4;5], 9; split; [reflexivity|split; [reflexivity|repeat constructor; vm_compute; discriminate]]|].
  split; [repeat constructor; simpl; lia|]. split; [discriminate|].
  intros a t r E H. change (x_toks ex2) with [0;1;2;3;4;5;9] in E.
  do 3 (destruct a as [|? a]; [injection E as <- <-; vm_compute in H; discriminate H|injection E as _ E]).
  destruct a as [|? a]; [injection E as <- <-; exists 5; split; [reflexivity|simpl; auto]|injection E as _ E].
  do 3 (destruct a as [|? a]; [injection E as <- <-; vm_compute in H; discriminate H|injection E as _ E]).
  destruct a; discriminate.
Qed.

(** ** C10 *)
(** Whatever is done between entering and leaving a look-ahead, control flow, nested
    look-aheads and errors included: position, error flag, peek depth, token list, tokens
    and reported messages are as before. *)
Theorem C10_lookahead : forall p x, let y := run (PLook p) x in
  x_cur y = x_cur x /\ x_err y = x_err x /\ x_peek y = x_peek x /\
  x_toks y = x_toks x /\ x_heap y = x_heap x /\ x_log y = x_log x.
Proof. intros p x. destruct (run_look p x) as [H|H]; cbv zeta; rewrite H; simpl; auto 10. Qed.

(** The look-ahead operations leave the stream alone altogether, and are defined, on
    every well-formed stream. *)
Theorem C10_peeks : forall x, wfs x ->
  snd (lexer_peek x) = x /\
  (forall ty, snd (lexer_peek_if ty x) = x) /\
  (forall f, snd (lexer_peek_if_flags f x) = x) /\
  (forall lt rt, snd (lexer_peek_if_pair lt rt x) = x) /\
  (forall f, snd (lexer_peek_if_prefix_flags f x) = x) /\
  (forall ty, snd (lexer_peek_until ty x) = x) /\
  (forall stop, snd (lexer_peek_until_comma stop x) = x).
Proof.
  intros x W. destruct (peek_spec x W) as (t & E & _).
  assert (F : length (x_toks x) < S (length (x_toks x))) by lia.
  pose proof (remain_le x (x_cur x)) as R.
  repeat split.
  - rewrite E; auto.
  - intros ty. unfold lexer_peek_if. rewrite E; auto.
  - intros f. unfold lexer_peek_if_flags. rewrite E; auto.
  - intros lt rt. unfold lexer_peek_if_pair, lexer_peek_if. rewrite E. destruct (ttype_eqb (tyof x t) lt); auto.
    cbn [lexer_peek_enter]. change (set_peek (S (x_peek x)) x) with (snd (lexer_peek_enter x)). rewrite enter_at by auto.
    destruct (pair_loop_spec x W lt rt (x_peek x) (S (length (x_toks x))) (x_cur x) 0 (here_cur x W)) as (ts & u & p' & F1 & _); [lia|right; lia|].
    rewrite F1, leave_x by auto. destruct (0 <? p')%Z; auto.
  - intros f. unfold lexer_peek_if_prefix_flags. destruct (lexer_back x); auto. destruct (next_of _ _); auto.
  - intros ty. unfold lexer_peek_until, lexer_until. cbn [lexer_peek_enter]. change (set_peek (S (x_peek x)) x) with (snd (lexer_peek_enter x)). rewrite enter_at by auto.
    destruct (until_spec x W ty (x_peek x) (S (length (x_toks (at_ x (x_peek x) (x_cur x))))) (x_cur x) (here_cur x W)) as (ts & u & _ & _ & _ & [(_ & F1)|(_ & _ & F1)]);
      [change (x_toks (at_ x (x_peek x) (x_cur x))) with (x_toks x); lia| |]; rewrite F1; apply leave_x; auto.
  - intros stop. unfold lexer_peek_until_comma, lexer_peek_until_not_nested. cbn [lexer_peek_enter]. change (set_peek (S (x_peek x)) x) with (snd (lexer_peek_enter x)). rewrite enter_at by auto.
    destruct (nn_loop_spec x W T_COMMA stop (x_peek x) (S (length (x_toks x))) (x_cur x) 0 (here_cur x W)) as (ts & u & _ & _ & _ & _ & [(_ & F1)|(_ & _ & _ & F1)]);
      [lia| |]; rewrite F1, leave_x; auto.
Qed.

(** What the look-ahead operations on a single token return: the token seen, if it is as
    asked for, and the first prefix of the following token that has the flags. *)
Theorem C10_values : forall x, wfs x ->
  exists t, sees x (x_cur x) t /\ fst (lexer_peek x) = Some t /\
  (forall ty, fst (lexer_peek_if ty x) = if ttype_eq_dec (tyof x t) ty then Some t else None) /\
  (forall f, fst (lexer_peek_if_flags f x) = if flagged f x t then Some t else None).
Proof.
  intros x W. destruct (peek_spec x W) as (t & E & S & _). exists t. split; [exact S|]. split; [rewrite E; reflexivity|]. split.
  - intros ty. unfold lexer_peek_if. rewrite E. cbn [fst]. destruct (ttype_eq_dec (tyof x t) ty) as [H|H]; [apply ttype_eqb_eq in H|apply ttype_eqb_neq in H]; rewrite H; reflexivity.
  - intros f. unfold lexer_peek_if_flags. rewrite E. reflexivity.
Qed.
Theorem C10_prefix : forall x c a t r f, wfs x -> x_cur x = Some c -> x_toks x = a ++ c :: t :: r ->
  match fst (lexer_peek_if_prefix_flags f x) with
  | Some p => exists u v, n_pre (x_heap x t) = u ++ p :: v /\ flagged f x p = true /\ Forall (fun q => flagged f x q = false) u
  | None => Forall (fun q => flagged f x q = false) (n_pre (x_heap x t))
  end.
Proof.
  intros x c a t r f (_ & D & _) C E. unfold lexer_peek_if_prefix_flags, lexer_back. rewrite C. rewrite E in D. destruct (nodup_split _ _ _ D) as (N & _). rewrite E, (next_split _ _ _ N). cbn [hd_error fst].
  induction (n_pre (x_heap x t)) as [|p l IH]; [constructor|]. cbn [find]. destruct (flagged f x p) eqn:P.
  - exists [], l. split; [reflexivity|]. split; [exact P|constructor].
  - destruct (find (fun p => flagged f x p) l) as [q|]; [|constructor; assumption]. destruct IH as (u & v & H1 & H2 & H3). exists (p :: u), v. rewrite H1. split; [reflexivity|]. split; [exact H2|constructor; assumption].
Qed.
Example C10_prefix_ex : fst (lexer_peek_if_prefix_flags F_BRANCH (set_cur (Some 0) (stream
    [tk0 T_IDENT; set_pre [3; 4] (tk0 T_IDENT); tk0 T_EOF; tk0 T_COMMENT; set_flags F_BRANCH (tk0 T_CPP)] [0; 1; 2]))) = Some 4.
Proof. reflexivity. Qed.

Example C10_ex : let body := PSeq (PIf T_IDENT) (PSeq (PLook (PUntil T_COMMA)) (PSeq (PIfPair T_LPAREN T_RPAREN) (PExpect T_COMMA))) in
  x_cur (run body ex1) = Some 7 /\ x_err (run body ex1) = true /\ run (PLook body) ex1 = ex1.
Proof. vm_compute. auto. Qed.

(** ** C11 *)
(** The next token in the list may be consumed: neither it nor the last one starts another
    branch of a conditional. *)
Definition halted (x : lex) : Prop := exists c, x_cur x = Some c /\ tyof x c <> T_EOF /\
  (flagged F_BRANCH x c = true \/ exists t, after x (x_cur x) t /\ flagged F_BRANCH x t = true).

Lemma pop_free : forall x, wfs x -> x_peek x = 0 -> ~ halted x ->
  exists t, lexer_pop x = (Some t, set_cur (Some t) x) /\ after x (x_cur x) t /\ In t (x_toks x).
Proof.
  intros x W Hp Hh. pose proof W as ((body & e & E & He & Hb) & Hd & Hc & _). unfold lexer_pop, after.
  destruct (x_cur x) as [c|] eqn:Ec.
  - assert (Hin := Hc c eq_refl). destruct (in_split _ _ Hin) as (a & r & Es).
    destruct (ttype_eqb (tyof x c) T_EOF) eqn:Ee.
    + exists c. split; auto. rewrite <- Ec at 1. destruct x; simpl in *; subst; reflexivity.
    + apply ttype_eqb_neq in Ee. destruct r as [|t r]; [exfalso; eapply not_eof_next; eauto|].
      assert (Hd' := Hd). rewrite Es in Hd'. destruct (nodup_split _ _ _ Hd') as (Hna & _).
      assert (Hn : next_of (x_toks x) c = Some t) by (rewrite Es, next_split; auto). rewrite Hn.
      assert (Ha : after x (Some c) t). { unfold after. apply ttype_eqb_neq in Ee. rewrite Ee. exists a, r; auto. }
      assert (F1 : flagged F_BRANCH x c = false). { destruct (flagged F_BRANCH x c) eqn:K; auto. exfalso. apply Hh. exists c. split; [exact Ec|]. auto. }
      assert (F2 : flagged F_BRANCH x t = false). { destruct (flagged F_BRANCH x t) eqn:K; auto. exfalso. apply Hh. exists c. split; [exact Ec|]. split; [exact Ee|]. right. exists t. rewrite Ec. auto. }
      rewrite F1, F2, andb_false_r. exists t. split; auto. split; [exists a, r; auto|]. rewrite Es. apply in_or_app. right; right; left; auto.
  - destruct (x_toks x) as [|t r] eqn:Et; [destruct body; discriminate|]. exists t. split; auto. split; [exists r; auto|left; auto].
Qed.
Lemma pop_halted : forall x, wfs x -> x_peek x = 0 -> halted x ->
  lexer_pop x = (None, x) \/ exists t, after x (x_cur x) t /\ flagged F_BRANCH x t = true /\ lexer_pop x = (None, set_cur (Some t) x).
Proof.
  intros x W Hp (c & Ec & Ee & Hb). unfold lexer_pop. rewrite Ec, Hp. apply ttype_eqb_neq in Ee. rewrite Ee. cbn [Nat.eqb andb].
  destruct (flagged F_BRANCH x c) eqn:Ef; auto. destruct Hb as [Hb|(t & Ha & Hf)]; [discriminate|]. right. exists t.
  rewrite Ec in Ha. split; auto. split; auto. unfold after in Ha. rewrite Ee in Ha. destruct Ha as (a & r & Es).
  destruct W as (_ & Hd & _). rewrite Es in Hd. destruct (nodup_split _ _ _ Hd) as (Hna & _). rewrite Es, next_split; auto. cbn. rewrite Hf. auto.
Qed.

(** Consuming by type: exactly the next token if it has the type, nothing otherwise. *)
Theorem C11_if : forall x ty, wfs x -> x_peek x = 0 -> ~ halted x ->
  exists t, after x (x_cur x) t /\
  lexer_if ty x = if ttype_eq_dec (tyof x t) ty then (Some t, set_cur (Some t) x) else (None, x).
Proof.
  intros x ty W Hp Hh. destruct (pop_free x W Hp Hh) as (t & E & Ha & _). exists t. split; auto.
  unfold lexer_if. rewrite E. change (tyof (set_cur (Some t) x) t) with (tyof x t).
  destruct (ttype_eq_dec (tyof x t) ty) as [H|H].
  - apply ttype_eqb_eq in H. rewrite H. auto.
  - apply ttype_eqb_neq in H. rewrite H. destruct x; reflexivity.
Qed.

(** At a branch nothing is consumed: the stream halts at the branch. *)
Theorem C11_if_halted : forall x ty, wfs x -> x_peek x = 0 -> halted x ->
  lexer_if ty x = (None, x) \/
  exists t, after x (x_cur x) t /\ flagged F_BRANCH x t = true /\ lexer_if ty x = (None, set_cur (Some t) x).
Proof.
  intros x ty W Hp Hh. unfold lexer_if. destruct (pop_halted x W Hp Hh) as [E|(t & H1 & H2 & E)]; rewrite E; eauto.
Qed.

(** While looking ahead: the token seen. *)
Theorem C11_if_peeking : forall x ty, wfs x -> x_peek x > 0 ->
  exists t, sees x (x_cur x) t /\
  lexer_if ty x = if ttype_eq_dec (tyof x t) ty then (Some t, set_cur (Some t) x) else (None, x).
Proof.
  intros x ty W Hp. destruct (x_peek x) as [|n] eqn:En; [lia|].
  destruct (pop_peek x W n (x_cur x) (here_cur x W)) as (t & E & Ha & _). exists t. split; auto.
  assert (Ex : forall c, at_ x n c = set_cur c x). { intros c. unfold at_. destruct x; simpl in *; subst; reflexivity. }
  rewrite !Ex in E. assert (Ex2 : set_cur (x_cur x) x = x) by (destruct x; reflexivity). rewrite Ex2 in E.
  unfold lexer_if. rewrite E. change (tyof (set_cur (Some t) x) t) with (tyof x t).
  destruct (ttype_eq_dec (tyof x t) ty) as [H|H].
  - apply ttype_eqb_eq in H. rewrite H. auto.
  - apply ttype_eqb_neq in H. rewrite H. destruct x; reflexivity.
Qed.

Theorem C11_if_flags : forall x f, wfs x -> x_peek x = 0 ->
  (halted x -> fst (lexer_if_flags f x) = None) /\
  (~ halted x ->
    exists t, after x (x_cur x) t /\
    lexer_if_flags f x = if flagged f x t then (Some t, set_cur (Some t) x) else (None, x)).
Proof.
  intros x f W Hp. destruct (peek_spec x W) as (u & E & Hs & _). unfold lexer_if_flags, lexer_peek_if_flags. rewrite E. split.
  - intros Hh. destruct (flagged f x u); auto. destruct (pop_halted x W Hp Hh) as [K|(t & _ & _ & K)]; rewrite K; auto.
  - intros Hh. destruct (pop_free x W Hp Hh) as (t & K & Ha & _). exists t. split; auto.
    assert (Hu : u = t).
    { destruct Hs as (t0 & A & B). assert (t0 = t) by (eapply after_fun; eauto). subst t0.
      destruct (flagged F_BRANCH x t) eqn:Ef; [|auto]. destruct (x_cur x) as [c|] eqn:Ec; [|exact B].
      destruct (ttype_eqb (tyof x c) T_EOF) eqn:Ee; [exact B|]. exfalso. apply Hh. exists c. apply ttype_eqb_neq in Ee. split; [exact Ec|]. split; [exact Ee|]. right. exists t. rewrite Ec. auto. }
    subst u. destruct (flagged f x t); auto.
Qed.

(** Streams without branches: consuming until a type stops at the first such token, and
    fails only at the end of file. *)
Definition branchless (x : lex) : Prop := forall t, In t (x_toks x) -> flagged F_BRANCH x t = false.

Lemma until_free : forall x ty, wfs x -> branchless x -> forall fuel c, here x c ->
  x_peek x = 0 ->
  until_loop fuel ty (set_cur c x) =
    (fst (until_loop fuel ty (at_ x 0 c)), set_peek 0 (snd (until_loop fuel ty (at_ x 0 c)))).
Proof.
  intros x ty W Hb. induction fuel as [|fuel IH]; intros c Hc Hp; cbn [until_loop].
  - unfold at_. destruct x; simpl in *; subst; reflexivity.
  - assert (W' : wfs (set_cur c x)) by (destruct W as (A & B & C & D); split; [exact A|split; [exact B|split; [exact Hc|exact D]]]).
    assert (Hh : ~ halted (set_cur c x)).
    { intros (c' & E1 & E2 & [E3|(t & E3 & E4)]).
      - change (flagged F_BRANCH x c' = true) in E3. rewrite Hb in E3; [discriminate|]. apply Hc. exact E1.
      - change (flagged F_BRANCH x t = true) in E4. rewrite (Hb t) in E4; [discriminate|]. change (x_cur (set_cur c x)) with c in *. subst c. unfold after in E3.
        change (tyof (set_cur (Some c') x) c') with (tyof x c') in *. apply ttype_eqb_neq in E2. rewrite E2 in E3. destruct E3 as (a & r & E3).
        change (x_toks (set_cur (Some c') x)) with (x_toks x) in E3. rewrite E3. apply in_or_app. right; right; left; auto. }
    destruct (pop_free (set_cur c x) W' Hp Hh) as (t & E & Ha & Hin). rewrite E.
    destruct (pop_peek x W 0 c Hc) as (u & F & Hs & _ & _). rewrite F.
    assert (Hu : u = t).
    { destruct Hs as (t0 & A & B). assert (A' : after x c t0) by exact A. assert (Ha' : after x c t) by exact Ha.
      assert (t0 = t) by (eapply after_fun; eauto). subst t0. rewrite (Hb t Hin) in B. exact B. }
    subst u. change (set_cur (Some t) (set_cur c x)) with (set_cur (Some t) x).
    change (tyof (set_cur (Some t) x) t) with (tyof x t). change (tyof (at_ x 0 (Some t)) t) with (tyof x t).
    assert (Ex : set_peek 0 (at_ x 0 (Some t)) = set_cur (Some t) x) by (unfold at_; destruct x; simpl in *; subst; reflexivity).
    destruct (ttype_eqb (tyof x t) T_EOF); [cbn [fst snd]; rewrite Ex; auto|].
    destruct (ttype_eqb (tyof x t) ty); [cbn [fst snd]; rewrite Ex; auto|].
    apply IH; auto. intros v Hv. inv Hv. exact Hin.
Qed.

Theorem C11_until : forall x ty, wfs x -> branchless x -> x_peek x = 0 ->
  exists ts t, saw x (x_cur x) (ts ++ [t]) /\ Forall (fun u => tyof x u <> T_EOF /\ tyof x u <> ty) ts /\
  ((tyof x t = T_EOF /\ lexer_until ty x = (None, set_cur (Some t) x)) \/
   (tyof x t <> T_EOF /\ tyof x t = ty /\ lexer_until ty x = (Some t, set_cur (Some t) x))).
Proof.
  intros x ty W Hb Hp.
  destruct (until_spec x W ty 0 (S (length (x_toks x))) (x_cur x) (here_cur x W)) as (ts & t & F1 & F2 & F3 & F4).
  { pose proof (remain_le x (x_cur x)). lia. }
  pose proof (until_free x ty W Hb (S (length (x_toks x))) (x_cur x) (here_cur x W) Hp) as K.
  assert (Ex : set_cur (x_cur x) x = x) by (destruct x; reflexivity). rewrite Ex in K. change (until_loop (S (length (x_toks x))) ty x) with (lexer_until ty x) in K.
  assert (Ex2 : set_peek 0 (at_ x 0 (Some t)) = set_cur (Some t) x) by (unfold at_; destruct x; simpl in *; subst; reflexivity).
  exists ts, t. split; auto. split; auto. destruct F4 as [(G1 & G2)|(G1 & G2 & G3)]; [left|right].
  - split; auto. rewrite K, G2. cbn [fst snd]. rewrite Ex2. auto.
  - split; auto. split; auto. rewrite K, G3. cbn [fst snd]. rewrite Ex2. auto.
Qed.

(** In streams without branches what is seen is the list itself. *)
Theorem C11_saw : forall x c ts, wfs x -> branchless x -> here x c -> no_eof x (removelast ts) -> (forall e, c = Some e -> tyof x e <> T_EOF) ->
  (saw x c ts <-> exists a r, x_toks x = a ++ ts ++ r /\ match c with None => a = [] | Some c => exists a', a = a' ++ [c] end).
Proof.
  intros x c ts W Hb. revert c. induction ts as [|t ts IH]; intros c Hc Hn He.
  - split; [|constructor]. intros _. destruct c as [c|].
    + destruct (in_split _ _ (Hc c eq_refl)) as (a & r & E). exists (a ++ [c]), r. split; [rewrite <- app_assoc; auto|eauto].
    + exists [], (x_toks x). auto.
  - assert (Hsee : sees x c t <-> match c with None => exists r, x_toks x = t :: r | Some c => exists a r, x_toks x = a ++ c :: t :: r end).
    { unfold sees, after. destruct c as [c|].
      - specialize (He c eq_refl). apply ttype_eqb_neq in He. rewrite He. split.
        + intros (t0 & (a & r & E) & B). rewrite (Hb t0) in B by (rewrite E; apply in_or_app; right; right; left; auto). cbn in B. subst. eauto.
        + intros (a & r & E). exists t. split; [eauto|]. rewrite (Hb t) by (rewrite E; apply in_or_app; right; right; left; auto). reflexivity.
      - split.
        + intros (t0 & (r & E) & B). rewrite andb_false_r in B. subst. eauto.
        + intros (r & E). exists t. split; [eauto|]. rewrite andb_false_r. reflexivity. }
    split.
    + intros H. inversion H as [|c0 t0 ts0 H1 H2]; subst. apply Hsee in H1.
      assert (Hin : In t (x_toks x)).
      { destruct c as [c|]; [destruct H1 as (a & r & ->); apply in_or_app; right; right; left; auto|destruct H1 as (r & ->); left; auto]. }
      assert (Ht : here x (Some t)) by (intros v Hv; inv Hv; auto).
      destruct ts as [|t2 ts].
      * destruct c as [c|]; [destruct H1 as (a & r & E); exists (a ++ [c]), r; split; [rewrite <- app_assoc; auto|eauto]|destruct H1 as (r & E); exists [], r; auto].
      * assert (Hte : tyof x t <> T_EOF) by (inversion Hn; auto).
        apply IH in H2; auto; [|inversion Hn; auto|intros e' Hv; inv Hv; auto]. destruct H2 as (a & r & E & a' & ->).
        destruct W as (_ & Hd & _). destruct c as [c|].
        -- destruct H1 as (b & s & E'). exists (b ++ [c]), r. split; [|eauto]. rewrite E', <- app_assoc. cbn [app]. do 2 f_equal. f_equal.
           rewrite E, <- app_assoc in E'. cbn [app] in E'. rewrite E, <- app_assoc in Hd. cbn [app] in Hd.
           change (b ++ c :: t :: s) with (b ++ [c] ++ t :: s) in E'. rewrite app_assoc in E'.
           destruct (split_unique _ _ _ _ _ Hd E') as (_ & K). auto.
        -- destruct H1 as (s & E'). exists [], r. split; auto. cbn [app]. rewrite E'. f_equal.
           rewrite E, <- app_assoc in E'. cbn [app] in E'. rewrite E, <- app_assoc in Hd. cbn [app] in Hd.
           change (t :: s) with ([] ++ t :: s) in E'. destruct (split_unique _ _ _ _ _ Hd E') as (_ & K). auto.
    + intros (a & r & E & Ha).
      assert (Hin : In t (x_toks x)) by (rewrite E; apply in_or_app; right; left; auto).
      constructor.
      * apply Hsee. destruct c as [c|]; [destruct Ha as (a' & ->); exists a', (ts ++ r); rewrite E, <- app_assoc; auto|subst a; exists (ts ++ r); auto].
      * destruct ts as [|t2 ts]; [constructor|]. assert (Hte : tyof x t <> T_EOF) by (inversion Hn; auto).
        apply IH; [intros v Hv; inv Hv; auto|inversion Hn; auto|intros e' Hv; inv Hv; auto|].
        exists (a ++ [t]), r. split; [rewrite E, <- app_assoc; auto|eauto].
Qed.

Example C11_ex : lexer_if T_IDENT ex1 = (Some 0, set_cur (Some 0) ex1) /\ lexer_if T_COMMA ex1 = (None, ex1) /\
  branchless ex1 /\ lexer_until T_COMMA ex1 = (Some 3, set_cur (Some 3) ex1).
Proof.
  split; [reflexivity|]. split; [reflexivity|]. split; [|reflexivity].
  exact (not_branch ex1 [0;1;2;3;4;5;6;7;8;9] eq_refl).
Qed.
Example C11_ex_halted : halted (set_cur (Some 2) ex2) /\ wfs (set_cur (Some 2) ex2) /\
  lexer_if T_INT (set_cur (Some 2) ex2) = (None, set_cur (Some 3) ex2) /\
  lexer_if T_IDENT (set_peek 1 (set_cur (Some 2) ex2)) = (Some 5, set_peek 1 (set_cur (Some 5) ex2)).
Proof.
  split; [|split; [|split; reflexivity]].
  - exists 2. split; [reflexivity|]. split; [vm_compute; discriminate|]. right. exists 3. split; [|reflexivity]. exists [0;1], [4;5;9]. reflexivity.
  - destruct ex2_wfs as (A & B & _ & D). split; [exact A|split; [exact B|split; [|exact D]]]. intros c Hc. inv Hc. simpl. auto.
Qed.

(** A failed consumption may move the position: it ends up on the branch. *)
Theorem C11_unchanged_refuted : exists x ty, wfs x /\ fst (lexer_if ty x) = None /\ x_cur (snd (lexer_if ty x)) <> x_cur x.
Proof. exists (set_cur (Some 2) ex2), T_INT. split; [apply C11_ex_halted|]. vm_compute. split; [auto|discriminate]. Qed.

(** ** C12 *)
Theorem C12_pair : forall x lt rt, wfs x -> lt <> T_EOF ->
  (exists l r, lexer_peek_if_pair lt rt x = (Some (l, Some r), x) /\ pair_of x lt rt l r) \/
  (lexer_peek_if_pair lt rt x = (None, x) /\ forall l r, ~ pair_of x lt rt l r).
Proof. intros x lt rt W. apply peek_if_pair_spec; exact W. Qed.

Theorem C12_if_pair : forall x lt rt, wfs x -> lt <> T_EOF ->
  (exists l r, lexer_if_pair lt rt x = (Some (l, Some r), set_cur (Some r) x) /\ pair_of x lt rt l r) \/
  (lexer_if_pair lt rt x = (None, x) /\ forall l r, ~ pair_of x lt rt l r).
Proof.
  intros x lt rt W H. unfold lexer_if_pair. destruct (peek_if_pair_spec x W lt rt H) as [(l & r & E & P)|(E & P)]; rewrite E; [left; eauto|right; auto].
Qed.

(** The pair is unique. *)
Theorem C12_unique : forall x lt rt l r l' r', wfs x -> pair_of x lt rt l r -> pair_of x lt rt l' r' -> l = l' /\ r = r'.
Proof.
  intros x lt rt l r l' r' W (ts & A1 & A2 & A3 & A4 & A5 & A6 & A7) (us & B1 & B2 & B3 & B4 & B5 & B6 & B7).
  assert (K : forall ts us, saw x (x_cur x) ts -> saw x (x_cur x) us -> us <> [] -> balance x lt rt us = 0%Z ->
    (forall a b, ts = a ++ b -> a <> [] -> b <> [] -> balance x lt rt a <> 0%Z) -> length us < length ts -> False).
  { clear -W. intros ts us A B Hne Hb Hm L.
    assert (E : us = firstn (length us) ts).
    { apply (saw_fun x W (x_cur x)); auto; [|rewrite firstn_length; lia]. apply (saw_app x _ _ (skipn (length us) ts)). rewrite firstn_skipn. auto. }
    apply (Hm us (skipn (length us) ts)); auto; [rewrite E at 1; symmetry; apply firstn_skipn|].
    intros Q. apply (f_equal (@length id)) in Q. rewrite skipn_length in Q. simpl in Q. lia. }
  assert (E : ts = us).
  { apply (saw_fun x W (x_cur x)); auto. destruct (Nat.lt_trichotomy (length ts) (length us)) as [H|[H|H]]; auto; exfalso.
    - apply (K us ts); auto. destruct ts; discriminate.
    - apply (K ts us); auto. destruct us; discriminate. }
  subst us. split; congruence.
Qed.

Theorem C12_comma : forall x stop, wfs x ->
  (exists ts t, lexer_peek_until_comma stop x = ((true, Some t), x) /\ found x T_COMMA stop ts t) \/
  (lexer_peek_until_comma stop x = ((false, stop), x) /\ forall ts t, ~ found x T_COMMA stop ts t).
Proof.
  intros x stop W. unfold lexer_peek_until_comma, lexer_peek_until_not_nested. cbn [lexer_peek_enter].
  change (set_peek (S (x_peek x)) x) with (snd (lexer_peek_enter x)). rewrite enter_at by auto.
  destruct (nn_loop_spec x W T_COMMA stop (x_peek x) (S (length (x_toks x))) (x_cur x) 0 (here_cur x W)) as (ts & u & F1 & F2 & F3 & F4 & F5).
  { pose proof (remain_le x (x_cur x)). lia. }
  destruct F5 as [(G1 & G2)|(G1 & G2 & G3 & G4)].
  - right. rewrite G2, leave_x by auto. split; auto. intros vs t (V1 & V2 & V3 & V4 & V5).
    destruct (le_lt_dec (length (vs ++ [t])) (length ts)) as [H|H].
    + assert (E : vs ++ [t] = firstn (length (vs ++ [t])) ts).
      { apply (saw_fun x W (x_cur x)); auto; [|rewrite firstn_length; lia].
        apply (saw_app x _ _ (skipn (length (vs ++ [t])) ts ++ [u])). rewrite app_assoc, firstn_skipn. auto. }
      apply (F4 vs t (skipn (length (vs ++ [t])) ts)); auto.
      rewrite <- (firstn_skipn (length (vs ++ [t])) ts) at 1. rewrite <- E, <- app_assoc. auto.
    + assert (E : ts ++ [u] = firstn (S (length ts)) (vs ++ [t])).
      { apply (saw_fun x W (x_cur x)); auto; [|rewrite firstn_length, app_length; simpl length; lia].
        apply (saw_app x _ _ (skipn (S (length ts)) (vs ++ [t]))). rewrite firstn_skipn. auto. }
      rewrite <- (firstn_skipn (S (length ts)) (vs ++ [t])), <- E in V2. rewrite Forall_app in V2. destruct V2 as (V2 & _).
      rewrite Forall_app in V2. destruct V2 as (_ & V2). inversion V2. auto.
  - left. exists ts, u. rewrite G4, leave_x by auto. split; auto. split; auto. split; [apply Forall_app; auto|]. split; auto.
Qed.

Example C12_ex : lexer_peek_if_pair T_LPAREN T_RPAREN (set_cur (Some 0) ex1) = (Some (1, Some 7), set_cur (Some 0) ex1) /\
  lexer_peek_if_pair T_LPAREN T_RPAREN (set_cur (Some 1) ex1) = (None, set_cur (Some 1) ex1) /\
  fst (lexer_peek_until_comma None (set_cur (Some 1) ex1)) = (true, Some 3) /\
  fst (lexer_peek_until_comma (Some 7) (set_cur (Some 3) ex1)) = (false, Some 7).
Proof. vm_compute. auto. Qed.

Print Assumptions C10_lookahead.
Print Assumptions C10_peeks.
Print Assumptions C11_if.
Print Assumptions C11_if_halted.
Print Assumptions C11_if_peeking.
Print Assumptions C11_if_flags.
Print Assumptions C11_until.
Print Assumptions C11_saw.
Print Assumptions C12_pair.
Print Assumptions C12_if_pair.
Print Assumptions C12_unique.
Print Assumptions C12_comma.
Print Assumptions C10_values.
Print Assumptions C10_prefix.
