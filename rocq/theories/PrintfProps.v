(** Removing the newline of error messages: C33. *)
From Verif Require Import Base TokenModel StreamModel StreamProofs TokListModel TokListProofs StreamProps PrintfModel.

(** ** Specification: what a C string literal denotes (C17 6.4.5, 6.4.4.4), given the bytes
    between the quotes.  [None]: not the inside of a literal. *)
Inductive dstate := DPlain | DEsc | DOct (v k : nat) | DHex0 | DHex (v : nat).
Definition code (c : byte) : nat := nat_of_ascii c.
Definition octal (c : byte) : option nat := if inrange "0" "7" c then Some (code c - 48) else None.
Definition hex (c : byte) : option nat :=
  if isdigit c then Some (code c - 48) else if inrange "a" "f" c then Some (code c - 87) else if inrange "A" "F" c then Some (code c - 55) else None.
Definition simple_escape (c : byte) : nat :=
  if c =c "n"%char then 10 else if c =c "t"%char then 9 else if c =c "r"%char then 13 else if c =c "a"%char then 7
  else if c =c "b"%char then 8 else if c =c "f"%char then 12 else if c =c "v"%char then 11 else code c.
Definition emit (v : nat) (r : option (list nat)) : option (list nat) := match r with Some l => Some (v :: l) | None => None end.
Fixpoint denote (st : dstate) (b : bytes) : option (list nat) :=
  match b with
  | [] => match st with DPlain => Some [] | DOct v _ | DHex v => Some [v] | DEsc | DHex0 => None end
  | c :: r =>
      let plain := if c =c BSL then denote DEsc r else if (c =c DQ) || (c =c NL) then None else emit (code c) (denote DPlain r) in
      match st with
      | DPlain => plain
      | DEsc => if c =c NL then denote DPlain r else if c =c "x"%char then denote DHex0 r
                else match octal c with Some d => denote (DOct d 1) r | None => emit (simple_escape c) (denote DPlain r) end
      | DOct v k => match octal c with
                    | Some d => if k <? 3 then denote (DOct (8 * v + d) (S k)) r else emit v plain
                    | None => emit v plain
                    end
      | DHex0 => match hex c with Some d => denote (DHex d) r | None => None end
      | DHex v => match hex c with Some d => denote (DHex (16 * v + d)) r | None => emit v plain end
      end
  end.
(** The message a string literal token denotes. *)
Definition message (s : bytes) : option (list nat) :=
  match s with
  | q :: r => match rev r with e :: b => if (q =c DQ) && (e =c DQ) then denote DPlain (rev b) else None | [] => None end
  | [] => None
  end.

(** ** Proofs. *)
Lemma emit_some : forall v r w, emit v r = Some w -> exists l, r = Some l /\ w = v :: l.
Proof. intros v [l|] w H; inversion H; subst. exists l. auto. Qed.
Definition NLE : bytes := [BSL; "n"%char].
Lemma snoc_cons : forall (v : nat) l w, v :: l = w ++ [10] -> l <> [] -> exists w', w = v :: w' /\ l = w' ++ [10].
Proof. intros v l [|a w] H N; cbn in H; [exfalso; apply N; congruence|]. exists w. split; congruence. Qed.
Lemma denote_nonempty : forall b st w, denote st (b ++ NLE) = Some w -> w <> [].
Proof.
  intros b. induction b as [|c b IH]; intros st w H.
  - destruct st; vm_compute in H; try discriminate; injection H as <-; discriminate.
  - cbn [app denote] in H. assert (PL : forall w, (if c =c BSL then denote DEsc (b ++ NLE) else if (c =c DQ) || (c =c NL) then None else emit (code c) (denote DPlain (b ++ NLE))) = Some w -> w <> []).
    { intros w0 H0. destruct (c =c BSL); [eapply IH; exact H0|]. destruct (_ || _); [discriminate|]. apply emit_some in H0. destruct H0 as (l & _ & ->). discriminate. }
    destruct st.
    + apply PL. exact H.
    + destruct (c =c NL); [eapply IH; exact H|]. destruct (c =c "x"%char); [eapply IH; exact H|]. destruct (octal c); [eapply IH; exact H|]. apply emit_some in H. destruct H as (l & _ & ->). discriminate.
    + destruct (octal c); [destruct (k <? 3); [eapply IH; exact H|]|]; apply emit_some in H; destruct H as (l & _ & ->); discriminate.
    + destruct (hex c); [eapply IH; exact H|discriminate].
    + destruct (hex c); [eapply IH; exact H|]. apply emit_some in H; destruct H as (l & _ & ->); discriminate.
Qed.
Lemma denote_strip : forall b st w, denote st (b ++ NLE) = Some (w ++ [10]) -> denote st b = Some w.
Proof.
  intros b. induction b as [|c b IH]; intros st w H.
  - destruct st; vm_compute in H; try discriminate; destruct w as [|a [|a' [|a'' w]]]; cbn in *; try discriminate; try (injection H as <-); try reflexivity; destruct w; discriminate.
  - cbn [app denote] in *. assert (EM : forall v st0 w, emit v (denote st0 (b ++ NLE)) = Some (w ++ [10]) -> emit v (denote st0 b) = Some w).
    { intros v st0 w0 H0. apply emit_some in H0. destruct H0 as (l & Hl & El). assert (l <> []) by (eapply denote_nonempty; exact Hl). symmetry in El. destruct (snoc_cons _ _ _ El) as (w' & -> & ->); [assumption|]. apply IH in Hl. rewrite Hl. reflexivity. }
    assert (PN : forall w, (if c =c BSL then denote DEsc (b ++ NLE) else if (c =c DQ) || (c =c NL) then None else emit (code c) (denote DPlain (b ++ NLE))) = Some w -> w <> []).
    { intros w0 H0. destruct (c =c BSL); [eapply denote_nonempty; exact H0|]. destruct (_ || _); [discriminate|]. apply emit_some in H0. destruct H0 as (l & _ & ->). discriminate. }
    assert (PL : forall w, (if c =c BSL then denote DEsc (b ++ NLE) else if (c =c DQ) || (c =c NL) then None else emit (code c) (denote DPlain (b ++ NLE))) = Some (w ++ [10]) -> (if c =c BSL then denote DEsc b else if (c =c DQ) || (c =c NL) then None else emit (code c) (denote DPlain b)) = Some w).
    { intros w0 H0. destruct (c =c BSL); [apply IH; exact H0|]. destruct (_ || _); [discriminate|]. apply EM. exact H0. }
    assert (PE : forall v w, emit v (if c =c BSL then denote DEsc (b ++ NLE) else if (c =c DQ) || (c =c NL) then None else emit (code c) (denote DPlain (b ++ NLE))) = Some (w ++ [10]) -> emit v (if c =c BSL then denote DEsc b else if (c =c DQ) || (c =c NL) then None else emit (code c) (denote DPlain b)) = Some w).
    { intros v w0 H0. apply emit_some in H0. destruct H0 as (l & Hl & El). assert (N := PN _ Hl). symmetry in El. destruct (snoc_cons _ _ _ El N) as (w' & -> & ->). rewrite (PL _ Hl). reflexivity. }
    destruct st.
    + apply PL. exact H.
    + destruct (c =c NL); [apply IH; exact H|]. destruct (c =c "x"%char); [apply IH; exact H|]. destruct (octal c); [apply IH; exact H|]. apply EM. exact H.
    + destruct (octal c); [destruct (k <? 3); [apply IH; exact H|]|]; apply PE; exact H.
    + destruct (hex c); [apply IH; exact H|discriminate].
    + destruct (hex c); [apply IH; exact H|]. apply PE; exact H.
Qed.
Lemma until_nul_id : forall s, ~ In NUL s -> until_nul s = s.
Proof.
  induction s as [|c s IH]; intros H; [reflexivity|]. cbn. destruct (c =c NUL) eqn:E; [apply Ascii.eqb_eq in E; destruct H; left; exact E|]. rewrite IH; [reflexivity|]. intros K. apply H. right. exact K.
Qed.
Lemma message_lit : forall b, message (DQ :: b ++ [DQ]) = denote DPlain b.
Proof. intros b. unfold message. rewrite rev_app_distr. cbn [rev app]. rewrite rev_involutive. reflexivity. Qed.
Lemma message_inv : forall s m, message s = Some m -> exists b, s = DQ :: b ++ [DQ] /\ denote DPlain b = Some m.
Proof.
  intros [|q r] m H; [discriminate|]. cbn [message] in H. destruct (rev r) as [|e b] eqn:E; [discriminate|]. destruct ((q =c DQ) && (e =c DQ)) eqn:E2; [|discriminate]. apply andb_true_iff in E2. destruct E2 as [A B]. apply Ascii.eqb_eq in A. apply Ascii.eqb_eq in B. subst. exists (rev b). split; [|exact H]. f_equal. rewrite <- (rev_involutive r), E. reflexivity.
Qed.
Lemma has_line_inv : forall b, string_has_line (DQ :: b ++ [DQ]) = true -> exists b', b = b' ++ NLE.
Proof.
  intros b H. unfold string_has_line in H. apply andb_true_iff in H. destruct H as [H1 H2]. apply beq_eq in H2. apply Nat.leb_le in H1.
  cbn [length] in *. rewrite app_length in *. cbn [length] in *. destruct b as [|c b] using rev_ind; [cbn in H1; lia|]. clear IHb. destruct b as [|d b] using rev_ind.
  - cbn in H2. injection H2. intros. discriminate.
  - clear IHb. rewrite !app_length in H2. cbn [length] in H2. replace (S (length b + 1 + 1 + 1) - 3) with (S (length b)) in H2 by lia. cbn [skipn] in H2. rewrite <- !app_assoc in H2. rewrite skipn_app, skipn_all, Nat.sub_diag in H2. cbn in H2. injection H2 as -> ->. exists b. rewrite <- app_assoc. reflexivity.
Qed.
Lemma sanitize_lit : forall b', ~ In NUL b' -> sanitize (DQ :: (b' ++ NLE) ++ [DQ]) = Some (DQ :: b' ++ [DQ]).
Proof.
  intros b' N. unfold sanitize. cbn [length skipn]. rewrite !app_length. cbn [length NLE]. destruct (Nat.ltb_spec (S (length b' + 2 + 1)) 4); [lia|]. replace (S (length b' + 2 + 1) - 4) with (length b') by lia. rewrite <- app_assoc, firstn_app, firstn_all, Nat.sub_diag. cbn [firstn]. rewrite app_nil_r, until_nul_id by exact N. reflexivity.
Qed.

(** The literal is replaced by a valid one that denotes the message without the newline at
    its end. *)
Theorem C33_message_partial : forall s m, ~ In NUL s -> string_has_line s = true -> message s = Some (m ++ [10]) ->
  exists s', sanitize s = Some s' /\ message s' = Some m.
Proof.
  intros s m N L M. apply message_inv in M. destruct M as (b & -> & D). destruct (has_line_inv _ L) as (b' & ->). assert (N' : ~ In NUL b') by (intros K; apply N; right; apply in_or_app; left; apply in_or_app; left; exact K).
  exists (DQ :: b' ++ [DQ]). split; [apply sanitize_lit; exact N'|]. rewrite message_lit. apply denote_strip. exact D.
Qed.
(** A backslash followed by the letter n at the end of the message is taken for a newline;
    what is left is not a string literal. *)
Theorem C33_message_refuted : exists s m, ~ In NUL s /\ string_has_line s = true /\ message s = Some m /\ forall s', sanitize s = Some s' -> message s' = None.
Proof.
  exists (DQ :: s2b "C:\\n" ++ [DQ]), [67;58;92;110]. split; [intros H; vm_compute in H; repeat (destruct H as [H|H]; [discriminate|]); exact H|]. split; [reflexivity|]. split; [reflexivity|]. intros s' H. injection H as <-. reflexivity.
Qed.
(** Wide literals are string tokens, too (clang.c:568-576); the prefix is lost and a quote is
    left inside. *)
Theorem C33_wide_refuted : exists b s', message (DQ :: b ++ [DQ]) = Some [111; 10] /\ sanitize ("L"%char :: DQ :: b ++ [DQ]) = Some s' /\ string_has_line ("L"%char :: DQ :: b ++ [DQ]) = true /\ message s' = None /\ s' = [DQ; DQ; "o"%char; DQ].
Proof. exists (s2b "o\n"). eexists. split; [reflexivity|]. split; [reflexivity|]. split; [reflexivity|]. split; reflexivity. Qed.

(** ** The argument *)
(** [n] arguments of a single token each, with the comma after them. *)
Inductive one_token_args (x : lex) : nat -> list id -> Prop :=
| ot_nil : one_token_args x 0 []
| ot_cons : forall n a c l, tyof x c = T_COMMA -> one_token_args x n l -> one_token_args x (S n) (a :: c :: l).
(** [f] is the last of the string literals that make up or begin the argument. *)
Definition format_of (x : lex) (c : option id) (n : nat) (f : id) (next : id) : Prop :=
  exists i lp args ss, saw x c (i :: lp :: args ++ ss ++ [f; next]) /\ tyof x i = T_IDENT /\ tyof x lp = T_LPAREN /\
    one_token_args x n args /\ Forall (fun t => tyof x t = T_STRING) (ss ++ [f]) /\ tyof x next <> T_STRING.

Lemma if_peek : forall x, wfs x -> forall n c ty, here x c -> exists t, sees x c t /\ In t (x_toks x) /\ (at_end x c = true \/ remain x (Some t) < remain x c) /\
  lexer_if ty (at_ x n c) = if ttype_eqb (tyof x t) ty then (Some t, at_ x n (Some t)) else (None, at_ x n c).
Proof.
  intros x W n c ty Hc. destruct (pop_peek x W n c Hc) as (t & E & S & I & R). exists t. split; [exact S|]. split; [exact I|]. split; [exact R|]. unfold lexer_if. rewrite E. change (tyof (at_ x n (Some t)) t) with (tyof x t). destruct (ttype_eqb (tyof x t) ty); reflexivity.
Qed.
Lemma here_some : forall x t, In t (x_toks x) -> here x (Some t).
Proof. intros x t H u Hu. injection Hu as <-. exact H. Qed.
Lemma saw_snoc2 : forall x c t ts, sees x c t -> saw x (Some t) ts -> saw x c (t :: ts).
Proof. intros. constructor; assumption. Qed.

Lemma strings_spec : forall x, wfs x -> forall n fuel c fmt, here x c -> remain x c < fuel -> (forall e, fmt = Some e -> c = Some e) ->
  exists r d, strings fuel fmt (at_ x n c) = (r, at_ x n d) /\
    exists ss next, saw x c (ss ++ [next]) /\ tyof x next <> T_STRING /\ Forall (fun t => tyof x t = T_STRING) ss /\ r = match rev ss with [] => fmt | f :: _ => Some f end.
Proof.
  intros x W n fuel. induction fuel as [|fuel IH]; intros c fmt Hc R F; [lia|]. cbn [strings]. destruct (if_peek x W n c T_STRING Hc) as (t & S & I & D & E). rewrite E. destruct (ttype_eqb (tyof x t) T_STRING) eqn:ET.
  - apply ttype_eqb_eq in ET. assert (R' : remain x (Some t) < fuel). { destruct D as [D|D]; [|lia]. exfalso. unfold at_end in D. destruct c as [c|]; [|discriminate]. destruct S as (t0 & A & B). unfold after in A. rewrite D in A. subst t0. cbn in B. rewrite D in B. rewrite andb_false_r in B. subst t. apply ttype_eqb_eq in D. congruence. }
    destruct (IH (Some t) (Some t) (here_some _ _ I) R' ltac:(congruence)) as (r & d & E1 & ss & next & SS & N & Fs & Er). rewrite E1. exists r, d. split; [reflexivity|]. exists (t :: ss), next. split; [constructor; assumption|]. split; [exact N|]. split; [constructor; assumption|]. rewrite Er. cbn [rev]. destruct (rev ss); reflexivity.
  - exists fmt, c. split; [reflexivity|]. exists [], t. split; [constructor; [exact S|constructor]|]. split; [apply ttype_eqb_neq; exact ET|]. split; [constructor|reflexivity].
Qed.
Lemma skip_spec : forall x, wfs x -> forall n k c, here x c -> exists b d, skip_args k (at_ x n c) = (b, at_ x n d) /\
  (b = true -> here x d /\ exists args, one_token_args x k args /\ forall ts, saw x d ts -> saw x c (args ++ ts)).
Proof.
  intros x W n k. induction k as [|k IH]; intros c Hc; cbn [skip_args].
  - exists true, c. split; [reflexivity|]. intros _. split; [exact Hc|]. exists []. split; [constructor|auto].
  - destruct (pop_peek x W n c Hc) as (a & E & S & I & _). rewrite E. destruct (if_peek x W n (Some a) T_COMMA (here_some _ _ I)) as (t & S2 & I2 & _ & E2). rewrite E2. destruct (ttype_eqb (tyof x t) T_COMMA) eqn:ET.
    + destruct (IH (Some t) (here_some _ _ I2)) as (b & d & E3 & H). exists b, d. split; [exact E3|]. intros Hb. destruct (H Hb) as (Hd & args & OT & SW). split; [exact Hd|]. exists (a :: t :: args). apply ttype_eqb_eq in ET. split; [constructor; assumption|]. intros ts Hts. constructor; [exact S|]. constructor; [exact S2|]. apply SW. exact Hts.
    + exists false, (Some a). split; [reflexivity|discriminate].
Qed.
Lemma seek_here : forall x tk, here x (x_cur (lexer_seek tk x)).
Proof.
  intros x tk t H. cbn in H. unfold prev_of in H. revert H. assert (G : forall l o, prev_from o l tk = Some t -> o = Some t \/ In t l).
  { induction l as [|a l IH]; intros o Hp; cbn in Hp; [discriminate|]. destruct (a =? tk); [left; exact Hp|]. destruct (IH _ Hp) as [H|H]; [injection H as <-; right; left; reflexivity|right; right; exact H]. }
  intros H. destruct (G _ _ H) as [?|?]; [discriminate|assumption].
Qed.
Theorem C33_argument : forall x tk n, wfs x -> exists r, find_format_argument tk n x = (r, x) /\
  forall f, r = Some f -> exists next, format_of x (x_cur (lexer_seek tk x)) n f next.
Proof.
  intros x tk n W. unfold find_format_argument. cbn [lexer_peek_enter]. assert (HC := seek_here x tk). set (c := x_cur (lexer_seek tk x)) in *.
  assert (E0 : lexer_seek tk (set_peek (S (x_peek x)) x) = at_ x (x_peek x) c) by (destruct x; reflexivity). rewrite E0. unfold find_inner.
  destruct (if_peek x W (x_peek x) c T_IDENT HC) as (i & S1 & I1 & _ & E1). rewrite E1. destruct (ttype_eqb (tyof x i) T_IDENT) eqn:T1; [|exists None; split; [f_equal; apply leave_x; exact W|discriminate]].
  destruct (if_peek x W (x_peek x) (Some i) T_LPAREN (here_some _ _ I1)) as (lp & S2 & I2 & _ & E2). rewrite E2. destruct (ttype_eqb (tyof x lp) T_LPAREN) eqn:T2; [|exists None; split; [f_equal; apply leave_x; exact W|discriminate]].
  destruct (skip_spec x W (x_peek x) n (Some lp) (here_some _ _ I2)) as (b & d & E3 & H3). rewrite E3. destruct b; [|exists None; split; [f_equal; apply leave_x; exact W|discriminate]]. destruct (H3 eq_refl) as (Hd & args & OT & SW).
  change (x_toks (at_ x (x_peek x) d)) with (x_toks x). destruct (strings_spec x W (x_peek x) (S (length (x_toks x))) d None Hd (le_n_S _ _ (remain_le x d)) (fun e (H : None = Some e) => ltac:(discriminate))) as (r & e & E4 & ss & next & SS & N & Fs & Er). rewrite E4. exists r. rewrite leave_x by exact W. split; [reflexivity|]. intros f Hr. exists next.
  destruct ss as [|f' ss] using rev_ind; [cbn in Er; congruence|]. clear IHss. rewrite rev_app_distr in Er. cbn in Er. rewrite Hr in Er. injection Er as ->. apply ttype_eqb_eq in T1. apply ttype_eqb_eq in T2. exists i, lp, args, ss. split; [|auto 6].
  constructor; [exact S1|]. constructor; [exact S2|]. apply SW. replace (ss ++ [f'; next]) with ((ss ++ [f']) ++ [next]) by (rewrite <- app_assoc; reflexivity). exact SS.
Qed.

(** err(3): which argument of a function is the format. *)
Definition messages : list (string * nat) :=
  [("err", 1); ("verr", 1); ("errc", 2); ("verrc", 2); ("errx", 1); ("verrx", 1); ("warn", 0); ("vwarn", 0); ("warnc", 1); ("vwarnc", 1); ("warnx", 0); ("vwarnx", 0); ("perror", 0)]%string.
Definition message_function (name : bytes) (n : nat) : Prop := exists s, name = s2b s /\ In (s, n) messages.
Lemma table_messages : forall nm a, In (nm, a) argno_table -> message_function nm a.
Proof.
  assert (F : Forall (fun e => message_function (fst e) (snd e)) argno_table).
  { unfold argno_table. repeat (constructor; [eexists; split; [reflexivity|unfold messages; cbn [In snd]; repeat (first [left; reflexivity|right])]|]). constructor. }
  rewrite Forall_forall in F. intros nm a H. apply (F _ H).
Qed.
(** The only effect on the tokens: the text of one string literal is replaced. *)
Theorem C33_frame : forall x tk, wfs x -> simple_expr_printf tk x = x \/
  exists n f next s, format_of x (x_cur (lexer_seek tk x)) n f next /\ message_function (n_str (x_heap x tk)) n /\ tyof x tk = T_IDENT /\
    string_has_line (n_str (x_heap x f)) = true /\ ((sanitize (n_str (x_heap x f)) = None /\ simple_expr_printf tk x = set_bad x) \/
    (sanitize (n_str (x_heap x f)) = Some s /\ simple_expr_printf tk x = set_heap (modify (x_heap x) f (set_str s)) x)).
Proof.
  intros x tk W. unfold simple_expr_printf. unfold identify_function. destruct (ttype_eqb (tyof x tk) T_IDENT) eqn:TI; cbn [negb]; [|left; reflexivity]. destruct (find _ argno_table) as [[nm a]|] eqn:EF; [|left; reflexivity].
  apply find_some in EF. destruct EF as [IN EQ]. cbn [fst] in EQ. apply beq_eq in EQ. subst nm. assert (MF := table_messages _ _ IN). destruct (C33_argument x tk a W) as (r & E & H). rewrite E. destruct r as [f|]; [|left; reflexivity]. destruct (H f eq_refl) as (next & FO). destruct (string_has_line (n_str (x_heap x f))) eqn:SL; cbn [negb]; [|left; reflexivity]. right.
  apply ttype_eqb_eq in TI. destruct (sanitize (n_str (x_heap x f))) as [s|] eqn:ES; [exists a, f, next, s|exists a, f, next, []]; split; auto 8.
Qed.

(** ** The newline need not be at the end of the message: a macro may follow. *)
Definition call_ex (l : list (ttype * bytes)) : lex := stream (map (fun '(ty, s) => set_str s (tk0 ty)) l) (seq 0 (length l)).
Definition ex_macro : lex := call_ex [(T_IDENT, s2b "warnx"); (T_LPAREN, s2b "("); (T_STRING, DQ :: s2b "a\n" ++ [DQ]); (T_IDENT, s2b "TAIL"); (T_RPAREN, s2b ")"); (T_SEMI, s2b ";"); (T_EOF, [])].
Lemma wfs_call : forall l, (exists b e, map fst l = b ++ [e] /\ e = T_EOF /\ forallb (fun t => negb (ttype_eqb t T_EOF)) b = true) -> wfs (call_ex l).
Proof.
  intros l (b & e & E & -> & F). assert (TY : forall i, i < length l -> tyof (call_ex l) i = nth i (map fst l) T_NONE).
  { intros i Hi. unfold call_ex, stream, tyof, of_list. cbn [x_heap]. destruct (nth_error l i) as [[ty s]|] eqn:En; [|apply nth_error_None in En; lia]. rewrite (nth_error_nth (map (fun '(ty, s) => set_str s (tk0 ty)) l) i (tk0 T_NONE) (map_nth_error _ _ _ En)). rewrite (nth_error_nth (map fst l) i T_NONE (map_nth_error _ _ _ En)). reflexivity. }
  assert (Lb : length l = S (length b)) by (rewrite <- (map_length fst l), E, app_length; cbn; lia).
  assert (FB : forall i, flagged F_BRANCH (call_ex l) i = false). { intros i. unfold flagged, call_ex, stream, of_list. cbn [x_heap]. destruct (nth_in_or_default i (map (fun '(ty, s) => set_str s (tk0 ty)) l) (tk0 T_NONE)) as [H|H]; [|rewrite H; reflexivity]. apply in_map_iff in H. destruct H as ([ty s] & <- & _). reflexivity. }
  split; [|split; [apply seq_NoDup|split; [discriminate|]]].
  - exists (seq 0 (length b)), (length b). split; [cbn [call_ex stream x_toks]; rewrite Lb, seq_S; reflexivity|]. split.
    + rewrite TY by lia. rewrite E, app_nth2, Nat.sub_diag by lia. reflexivity.
    + apply Forall_forall. intros i Hi. apply in_seq in Hi. rewrite TY by lia. rewrite E, app_nth1 by lia. rewrite forallb_forall in F. intros K. assert (K2 := F (nth i b T_NONE) ltac:(apply nth_In; lia)). rewrite K in K2. discriminate.
  - intros a t r _ K. rewrite FB in K. discriminate.
Qed.
Theorem C33_macro_refuted : exists x tk f next, wfs x /\ format_of x (x_cur (lexer_seek tk x)) 0 f next /\ tyof x next = T_IDENT /\ n_str (x_heap (simple_expr_printf tk x) f) = DQ :: s2b "a" ++ [DQ].
Proof.
  exists ex_macro, 0, 2, 3. assert (W : wfs ex_macro). { apply wfs_call. exists [T_IDENT; T_LPAREN; T_STRING; T_IDENT; T_RPAREN; T_SEMI], T_EOF. split; [reflexivity|]. split; reflexivity. }
  split; [exact W|]. split; [|split; reflexivity]. exists 0, 1, [], []. split; [|repeat split; try discriminate; repeat constructor].
  cbn [app]. assert (B : forall c t, after ex_macro c t -> flagged F_BRANCH ex_macro t = false -> sees ex_macro c t) by (intros c t A H; exists t; split; [exact A|rewrite H; reflexivity]).
  repeat (constructor; [apply B; [|reflexivity]|]); [exists [1;2;3;4;5;6]|exists [], [2;3;4;5;6]|exists [0], [3;4;5;6]|exists [0;1], [4;5;6]|constructor]; reflexivity.
Qed.

(** ** Examples *)
Definition ex_errc : lex := call_ex [(T_IDENT, s2b "errc"); (T_LPAREN, s2b "("); (T_LITERAL, s2b "1"); (T_COMMA, s2b ","); (T_IDENT, s2b "EINVAL"); (T_COMMA, s2b ","); (T_STRING, DQ :: s2b "b" ++ [DQ]); (T_STRING, DQ :: s2b "a\n" ++ [DQ]); (T_RPAREN, s2b ")"); (T_SEMI, s2b ";"); (T_EOF, [])].
Example ex_errc_wfs : wfs ex_errc.
Proof. apply wfs_call. exists [T_IDENT; T_LPAREN; T_LITERAL; T_COMMA; T_IDENT; T_COMMA; T_STRING; T_STRING; T_RPAREN; T_SEMI], T_EOF. split; [reflexivity|]. split; reflexivity. Qed.
Example ex_errc_run : map (fun i => n_str (x_heap (simple_expr_printf 0 ex_errc) i)) [6; 7] = [DQ :: s2b "b" ++ [DQ]; DQ :: s2b "a" ++ [DQ]].
Proof. vm_compute. reflexivity. Qed.
Example ex_message : message (DQ :: s2b "\x41\012\\\n" ++ [DQ]) = Some ([65; 10; 92] ++ [10]) /\ string_has_line (DQ :: s2b "\x41\012\\\n" ++ [DQ]) = true /\ sanitize (DQ :: s2b "\x41\012\\\n" ++ [DQ]) = Some (DQ :: s2b "\x41\012\\" ++ [DQ]).
Proof. vm_compute. repeat split. Qed.

Print Assumptions C33_message_partial.
Print Assumptions C33_message_refuted.
Print Assumptions C33_wide_refuted.
Print Assumptions C33_argument.
Print Assumptions C33_frame.
Print Assumptions C33_macro_refuted.
