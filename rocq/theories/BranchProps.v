(** Properties C16 and C56: preprocessor branches and lifetimes of tokens. *)
From Coq Require Import Permutation.
From Verif Require Import Base TokenModel StreamModel StreamProofs TokListModel TokListProofs BranchModel BranchProofs LifeProofs StreamProps.

(** ** C16 *)
(** Every sequence of directives is made of complete conditionals and unmatched directives,
    and in one way only. *)
Theorem C16_parse : forall K ds, (forall d, In d ds -> K d <> KNone) ->
  exists cs un, file K ds cs un /\ Permutation ds (concat cs ++ un) /\
    (forall c, In c cs -> exists i m e, c = i :: m ++ [e] /\ K i = KIf /\ Forall (fun d => K d = KElse) m /\ K e = KEnd) /\
    forall cs' un', file K ds cs' un' -> cs' = cs /\ Permutation un' un.
Proof.
  intros K ds Hk. destruct (file_exists K ds Hk) as (cs & un & Hf). exists cs, un. split; auto. destruct (file_shape K _ _ _ Hf) as (A & B). split; auto. split; auto.
  intros cs' un' Hf'. destruct (file_run K _ _ _ Hf) as (o & s & R & P1). destruct (file_run K _ _ _ Hf') as (o' & s' & R' & P2). rewrite R in R'. injection R' as -> -> ->.
  split; auto. rewrite P1, P2. auto.
Qed.

(** Tokenization never fails.  Each complete conditional is linked in source order and its
    directives refer to the tokens they precede; unmatched directives become opaque; nothing
    else changes but the reference counts of the tokens and their branch flags, which then
    are as token_branch_find says. *)
Theorem C16_link : forall x cs un, unlinked x -> file (fun d => kind_of (n_type (x_heap x d))) (directives x) cs un ->
  exists y, tokenize_branches x = Some y /\ x_toks y = x_toks x /\
    (forall c a d b, In c cs -> c = a ++ d :: b ->
       n_pv (x_heap y d) = hd_error (rev a) /\ n_nx (x_heap y d) = hd_error b /\ n_type (x_heap y d) = n_type (x_heap x d) /\
       exists t, n_parent (x_heap y d) = Some t /\ In t (x_toks x) /\ In d (n_pre (x_heap x t))) /\
    (forall d, In d un -> n_type (x_heap y d) = T_CPP /\ n_pv (x_heap y d) = None /\ n_nx (x_heap y d) = None /\ n_parent (x_heap y d) = None) /\
    (forall i, ~ In i un -> n_type (x_heap y i) = n_type (x_heap x i)) /\
    (forall i, ~ In i (concat cs) -> n_pv (x_heap y i) = None /\ n_nx (x_heap y i) = None /\ n_parent (x_heap y i) = None) /\
    frameb (x_heap x) (x_heap y) /\
    (forall i, N.ldiff (n_flags (x_heap y i)) F_BRANCH = N.ldiff (n_flags (x_heap x i)) F_BRANCH) /\
    (forall t, In t (x_toks x) -> N.testbit (n_flags (x_heap y t)) 3 = match branch_find (x_heap y) t with Some _ => true | None => false end) /\
    (forall t, In t (x_toks x) -> n_refs (x_heap y t) = n_refs (x_heap x t) + matched cs (n_pre (x_heap x t))).
Proof.
  intros x cs un U Hf. destruct (tokenize_spec x cs un U Hf) as (y & E & Y1 & Y2 & Y3 & Y4 & Y5 & Y6 & Y7 & Y8 & Y9 & Y10 & Y11 & Y12 & Y13 & Y14).
  exists y. split; auto. split; auto. split; [|repeat (split; auto)].
  intros c a d b Hc Ec. destruct (Y4 c Hc a d b Ec) as (A & B & C). split; auto. split; auto.
  assert (Hd : In d (concat cs)) by (apply in_concat; exists c; split; auto; rewrite Ec; apply in_or_app; right; left; auto).
  split; [apply Y8; intros K; eapply (nodup_app_disj _ _ d Y5); eauto|]. eexists. split; [exact C|]. apply Y6. apply in_or_app; auto.
Qed.

(** #endif a #if b #if c #else d #endif e #endif f #else g #if EOF: two conditionals, three
    unmatched directives. *)
Definition ex4 : lex := stream
  [set_pre [8] (tk0 T_IDENT); set_pre [9] (tk0 T_IDENT); set_pre [10] (tk0 T_IDENT); set_pre [11] (tk0 T_IDENT); set_pre [12] (tk0 T_IDENT);
   set_pre [13] (tk0 T_IDENT); set_pre [14] (tk0 T_IDENT); set_pre [15; 16] (tk0 T_EOF);
   tk0 T_CPP_ENDIF; tk0 T_CPP_IFDEF; tk0 T_CPP_IF; tk0 T_CPP_ELIF; tk0 T_CPP_ENDIF; tk0 T_CPP_ENDIF; tk0 T_CPP_ELSE; tk0 T_CPP_IFNDEF; tk0 T_COMMENT] [0;1;2;3;4;5;6;7].
Lemma ex4_out : forall i, i >= 17 -> x_heap ex4 i = x_heap ex4 17.
Proof. intros i H. do 17 (destruct i as [|i]; [lia|]). destruct i; reflexivity. Qed.
Lemma ex4_all : forall (P : id -> Prop), (forall i, i < 17 -> P i) -> (forall i, x_heap ex4 i = x_heap ex4 17 -> P i) -> forall i, P i.
Proof. intros P A B i. destruct (Nat.lt_ge_cases i 17); [auto|apply B; apply ex4_out; lia]. Qed.
Ltac small17 i H := do 17 (destruct i as [|i]; [vm_compute; auto 10|]); lia.
Example ex4_unlinked : unlinked ex4.
Proof.
  constructor.
  - vm_compute. repeat constructor; simpl; intuition lia.
  - vm_compute. intuition lia.
  - apply ex4_all; [intros i Hi; small17 i Hi|intros i ->; vm_compute; auto].
  - apply ex4_all; [intros i Hi; small17 i Hi|intros i ->; vm_compute; auto].
  - intros t Ht. change (x_toks ex4) with [0;1;2;3;4;5;6;7] in Ht. cbn in Ht. intuition (subst; vm_compute; lia).
Qed.
Example C16_ex : match tokenize_branches ex4 with
  | Some y => map (fun d => (n_type (x_heap y d), n_pv (x_heap y d), n_nx (x_heap y d), n_parent (x_heap y d))) [8;9;10;11;12;13;14;15] =
      [(T_CPP, None, None, None); (T_CPP_IFDEF, None, Some 13, Some 1); (T_CPP_IF, None, Some 11, Some 2); (T_CPP_ELIF, Some 10, Some 12, Some 3);
       (T_CPP_ENDIF, Some 11, None, Some 4); (T_CPP_ENDIF, Some 9, None, Some 5); (T_CPP, None, None, None); (T_CPP, None, None, None)] /\
      map (fun t => N.testbit (n_flags (x_heap y t)) 3) [0;1;2;3;4;5;6;7] = [false;false;false;true;false;false;false;false]
  | None => False end.
Proof. vm_compute. auto. Qed.
Example C16_ex_file : file (fun d => kind_of (n_type (x_heap ex4 d))) (directives ex4) [[10;11;12];[9;13]] [8;14;15].
Proof.
  change (directives ex4) with [8;9;10;11;12;13;14;15]. set (K := fun d => kind_of (n_type (x_heap ex4 d))).
  exists ([] ++ 8 :: [9;10;11;12;13] ++ 14 :: []), [15], [[10;11;12];[9;13]], [], [8;14], [[15]]. split; auto. split; [|split; [|auto]].
  - apply (sy_more K ([8] ++ [9;10;11;12;13]) [[10;11;12];[9;13]] [8] 14 [] []); [|left; reflexivity|constructor].
    apply (sy_more K [] [] [] 8 [9;10;11;12;13] [[10;11;12];[9;13]]); [repeat constructor|right; reflexivity|].
    apply (bal_cond K [] [] [9;10;11;12] [9] [[10;11;12]] 13); [constructor| |reflexivity].
    apply grp_if; [reflexivity|]. apply (bal_cond K [] [] [10;11] [10;11] [] 12); [constructor| |reflexivity].
    apply (grp_else K [10] [10] [] 11 [] []); [apply grp_if; [reflexivity|constructor]|reflexivity|constructor].
  - apply (op_more K [] [] [] [15] [15] []); [constructor|]. apply grp_if; [reflexivity|constructor].
Qed.
Print Assumptions C16_parse.
Print Assumptions C16_link.

(** ** C56 *)
(** From any file, through any history of seeking, stamping, unlinking and removing: no step
    fails, and at shutdown every token still listed has exactly one reference once branches
    and stamps are dropped, the assertion in lexer_free holds for each, and afterwards no
    token, prefix, suffix or stamped token is left. *)
Theorem C56_progress : forall x0 x y s o, fresh x0 -> cur_ok x0 -> tokenize_branches x0 = Some x -> reach x y s -> op_ok y o -> exec o y s <> None.
Proof.
  intros x0 x y s o F C E R Ho. destruct (start_life x0 F) as (x' & cs & E' & L & T1 & T2 & _). assert (x' = x) by congruence. subst x'.
  destruct (reach_life x cs y s L) as ((cs' & L') & C'); auto.
  - intros t. rewrite T1, T2. apply C.
  - destruct (exec_life o y s cs' L' C' Ho) as (? & ? & ? & -> & _). discriminate.
Qed.
Theorem C56_balanced : forall x0, fresh x0 -> cur_ok x0 ->
  exists x, tokenize_branches x0 = Some x /\ forall y s, reach x y s ->
    exists f g, before_free y s = Some f /\ (forall t, In t (x_toks y) -> n_refs (f t) = 1) /\
      lexer_free y s = Some g /\ (forall i, In i (whole (x_heap y) (x_toks y)) \/ In i s -> n_refs (g i) = 0 /\ n_live (g i) = false).
Proof.
  intros x0 F C. destruct (start_life x0 F) as (x & cs & E & L & T1 & T2 & _). exists x. split; auto. intros y s R.
  destruct (reach_life x cs y s L) as ((cs' & L') & _); auto.
  - intros t. rewrite T1, T2. apply C.
  - destruct (free_spec y s cs' L') as (g & G1 & G2 & f & F1 & F2). eauto 10.
Qed.

Example ex4_fresh : fresh ex4.
Proof.
  split; [apply ex4_unlinked|]. split; [exists [0;1;2;3;4;5;6], 7; split; [reflexivity|split; [reflexivity|]]; repeat constructor; vm_compute; discriminate|].
  change (x_toks ex4) with [0;1;2;3;4;5;6;7]. split; [|split].
  - intros t Ht. cbn in Ht. intuition (subst; reflexivity).
  - intros t p Ht Hp. cbn in Ht. intuition (subst; cbn in Hp; intuition (subst; auto)).
  - intros t p Ht Hp. cbn in Ht. intuition (subst; cbn in Hp; contradiction).
Qed.
(** A stamp on a token that is then removed with its #if, and one that stays. *)
Example C56_ex : match tokenize_branches ex4 with
  | Some x =>
      match exec (OSeek 2) x [] with Some (x, s) => match exec OStamp x s with Some (x, s) =>
      match exec (OUnlink 10) x s with Some (x, s) => match exec (ORemoveAll 2) x s with Some (x, s) =>
      match exec (OSeek 3) x s with Some (x, s) => match exec OStamp x s with Some (x, s) => match exec (ORemove 1) x s with Some (x, s) =>
        x_toks x = [0;3;4;5;6;7] /\ s = [3;2] /\ n_refs (x_heap x 3) = 4 /\ n_refs (x_heap x 2) = 1 /\
        match lexer_free x s with Some g => map (fun i => n_refs (g i)) (seq 0 17) = repeat 0 17 | None => False end
      | None => False end | None => False end | None => False end | None => False end | None => False end | None => False end | None => False end
  | None => False end.
Proof. vm_compute. auto 10. Qed.

(** A copy of a token with a directive (lexer_copy_after) is not covered: the copied prefix
    is a directive that belongs to no conditional, and shutting down dereferences NULL. *)
Theorem C56_copy_refuted : exists x y, tokenize_branches x = Some y /\ fresh x /\ cur_ok x /\
  match copy_after 0 1 y with Some (_, z) => lexer_free z [] = None | None => False end.
Proof.
  exists ex4. destruct (tokenize_branches ex4) as [y|] eqn:E; [|vm_compute in E; discriminate]. exists y. split; auto. split; [apply ex4_fresh|]. split; [intros t; discriminate|].
  assert (Q : match tokenize_branches ex4 with Some y => match copy_after 0 1 y with Some (_, z) => lexer_free z [] = None | None => False end | None => False end) by (vm_compute; auto).
  rewrite E in Q. exact Q.
Qed.
Print Assumptions C56_progress.
Print Assumptions C56_balanced.
Print Assumptions C56_copy_refuted.
