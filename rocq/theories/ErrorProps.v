(** C53: messages are neither lost nor duplicated. *)
From Verif Require Import Base StrModel UtilModel UtilProofs TokenModel LexModel LexSpec CommentModel LexAll LexProps LinesModel LinesProps ErrorModel.

Inductive eop := EReport (path text trace : bytes) (t : tok) | EFlush | EReset | EEnter | ELeave.
Section Errors.
Variable inp : bytes.
Variable lx : lexer.
Definition estep (o : eop) (e : errs) : errs :=
  match o with
  | EReport path text trace t => lexer_error inp lx path text trace t e
  | EFlush => lexer_error_flush e | EReset => lexer_error_reset e | EEnter => peek_enter e | ELeave => peek_leave e
  end.
Definition erun (os : list eop) (e : errs) : errs := fold_left (fun e o => estep o e) os e.

(** ** Specification: the messages reported outside of peeks, in order. *)
Fixpoint reported (d : nat) (os : list eop) : list bytes :=
  match os with
  | [] => []
  | EEnter :: r => reported (S d) r
  | ELeave :: r => reported (pred d) r
  | EReport path text trace t :: r => (if d =? 0 then match message inp lx path text trace t with Some m => [m] | None => [] end else []) ++ reported d r
  | _ :: r => reported d r
  end.
(** Peeks are left only after they were entered and messages concern tokens on existing
    lines. *)
Fixpoint wf_ops (d : nat) (os : list eop) : Prop :=
  match os with
  | [] => True
  | EEnter :: r => wf_ops (S d) r
  | ELeave :: r => 0 < d /\ wf_ops (pred d) r
  | EReport path text trace t :: r => message inp lx path text trace t <> None /\ wf_ops d r
  | _ :: r => wf_ops d r
  end.
Definition is_reset (o : eop) : bool := match o with EReset => true | _ => false end.
Definition is_flush (o : eop) : bool := match o with EFlush => true | _ => false end.

(** ** Messages contain no NUL. *)
Lemma cstr_nul : forall s, ~ In NUL (cstr s).
Proof. induction s as [|c s IH]; cbn [cstr]; [intros []|]. destruct (Ascii.eqb_spec c NUL); [intros []|]. intros [E|E]; [congruence|auto]. Qed.
Lemma cstr_id : forall s, ~ In NUL s -> cstr s = s.
Proof. induction s as [|c s IH]; cbn [cstr]; intros H; [reflexivity|]. destruct (Ascii.eqb_spec c NUL) as [E|E]; [exfalso; apply H; left; exact E|]. f_equal. apply IH. intros Q. apply H. right. exact Q. Qed.
Lemma digit_nul : forall d, d < 10 -> ascii_of_nat (48 + d) <> NUL.
Proof. intros d H. do 10 (destruct d as [|d]; [discriminate|]). lia. Qed.
Lemma dec_nul : forall f n, ~ In NUL (dec_loop f n).
Proof.
  induction f as [|f IH]; intros n; cbn [dec_loop]; [intros []|]. rewrite in_app_iff. intros [H|[H|[]]].
  - destruct (n / 10 =? 0); [destruct H|]. exact (IH _ H).
  - apply (digit_nul (n mod 10)); [apply Nat.mod_upper_bound; discriminate|exact H].
Qed.
Lemma repeat_nul : forall c n, c <> NUL -> ~ In NUL (repeat c n).
Proof. intros c n H I. apply repeat_spec in I. congruence. Qed.
Lemma message_nul : forall path text trace t m, message inp lx path text trace t = Some m -> ~ In NUL m.
Proof.
  intros path text trace t m H. assert (HD : ~ In NUL (cstr path ++ s2b ":" ++ dec (t_lno t) ++ s2b ": " ++ cstr text ++ cstr trace ++ [NL])).
  { rewrite !in_app_iff. intros [Q|[Q|[Q|[Q|[Q|[Q|Q]]]]]]; try (exact (cstr_nul _ Q)); try (exact (dec_nul _ _ Q)); cbn in Q; intuition discriminate. }
  unfold message in H. destruct (get_lines inp lx (t_lno t) (S (t_lno t))) as [| |o n]; [discriminate|inversion H; subst; exact HD|].
  destruct (has_line _); inversion H; subst; [exact HD|]. rewrite in_app_iff. intros [Q|Q]; [exact (HD Q)|]. rewrite !in_app_iff in Q.
  destruct Q as [Q|[Q|[Q|Q]]]; [exact (cstr_nul _ Q)|revert Q; apply repeat_nul; discriminate|revert Q; apply repeat_nul; discriminate|cbn in Q; intuition discriminate].
Qed.

(** ** Any history. *)
Record einv (e : errs) : Prop := { ei_bad : e_bad e = false; ei_nul : ~ In NUL (e_buf e) }.
Lemma flush_spec : forall e force, einv e -> (Z.of_nat (length (e_buf e)) <= INT_MAX)%Z ->
  einv (error_flush e force) /\ e_peek (error_flush e force) = e_peek e /\ e_flush (error_flush e force) = e_flush e /\ e_err (error_flush e force) = e_err e /\
  if force || e_flush e then e_out (error_flush e force) = e_out e ++ e_buf e /\ e_buf (error_flush e force) = [] else error_flush e force = e.
Proof.
  intros e force [B N] H. unfold error_flush. replace (negb force && negb (e_flush e)) with (negb (force || e_flush e)) by (destruct force, (e_flush e); reflexivity).
  destruct (force || e_flush e); cbn [negb]; [|repeat split; auto].
  destruct (e_buf e) as [|c r] eqn:E; cbn [error_reset e_buf e_flush e_out e_peek e_err e_bad].
  - rewrite app_nil_r. repeat split; auto.
  - rewrite <- E in *. destruct (Z.ltb_spec INT_MAX (Z.of_nat (length (e_buf e)))); [lia|]. cbn [error_reset e_buf e_flush e_out e_peek e_err e_bad]. rewrite cstr_id by exact N. repeat split; auto.
Qed.

Fixpoint total (l : list bytes) : nat := match l with [] => 0 | m :: r => length m + total r end.
Lemma total_concat : forall l, length (concat l) = total l.
Proof. induction l as [|m l IH]; cbn [concat total]; [reflexivity|]. rewrite app_length, IH. reflexivity. Qed.
(** Without resets: everything reported outside of peeks has been printed, once and in
    order, or is still in the buffer. *)
Lemma run_all : forall os e, einv e -> wf_ops (length (e_peek e)) os -> existsb is_reset os = false ->
  (Z.of_nat (length (e_buf e) + total (reported (length (e_peek e)) os)) <= INT_MAX)%Z ->
  let e' := erun os e in einv e' /\ e_flush e' = e_flush e /\ e_out e' ++ e_buf e' = e_out e ++ e_buf e ++ concat (reported (length (e_peek e)) os) /\
  (existsb is_flush os = false -> e_flush e = false -> e_out e' = e_out e) /\ (e_flush e = true -> e_buf e = [] -> e_buf e' = []).
Proof.
  induction os as [|o r IH]; intros e I W NR SZ; cbn [erun fold_left] in *.
  { cbv zeta. cbn [reported concat]. rewrite app_nil_r. auto. }
  fold (erun r (estep o e)). destruct o as [path text trace t| | | |]; cbn [existsb is_reset is_flush orb reported wf_ops estep] in *; try discriminate.
  - destruct W as [WM W]. unfold lexer_error. cbn [e_peek e_buf e_flush e_out e_bad]. destruct (e_peek e) as [|p ps] eqn:EP; cbn [length Nat.eqb] in *.
    + destruct (message inp lx path text trace t) as [m|] eqn:EM; [|congruence]. cbn [app total concat] in *.
      set (e1 := Errs (e_buf e ++ m) (e_flush e) (e_out e) [] true (e_bad e)).
      assert (I1 : einv e1) by (destruct I; constructor; [assumption|]; cbn [e_buf e1]; rewrite in_app_iff; intros [Q|Q]; [auto|]; exact (message_nul _ _ _ _ _ EM Q)).
      assert (L1 : (Z.of_nat (length (e_buf e1)) <= INT_MAX)%Z) by (cbn [e_buf e1]; rewrite app_length; lia).
      destruct (flush_spec e1 false I1 L1) as (F1 & F2 & F3 & F4 & F5). fold (error_end e1) in *. cbn [orb] in F5.
      assert (LE : length (e_buf (error_end e1)) <= length (e_buf e) + length m).
      { destruct (e_flush e1); [destruct F5 as [_ ->]; cbn; lia|]. rewrite F5. cbn [e_buf e1]. rewrite app_length. lia. }
      specialize (IH (error_end e1) F1). rewrite F2 in IH. cbn [e_peek e1 length] in IH. specialize (IH W NR). destruct IH as (A1 & A2 & A3 & A4 & A5); [lia|].
      split; [exact A1|]. split; [rewrite A2, F3; reflexivity|]. split; [|split].
      * rewrite A3. destruct (e_flush e1).
        -- destruct F5 as [-> ->]. cbn [e_out e_buf e1 app]. rewrite <- !app_assoc. reflexivity.
        -- rewrite F5. cbn [e_out e_buf e1]. rewrite <- !app_assoc. reflexivity.
      * intros NF FL. rewrite A4 by (auto; rewrite F3; exact FL). cbn [e_flush e1] in F5. rewrite FL in F5. rewrite F5. reflexivity.
      * intros FL BE. apply A5; [rewrite F3; exact FL|]. cbn [e_flush e1] in F5. rewrite FL in F5. tauto.
    + specialize (IH (Errs (e_buf e) (e_flush e) (e_out e) (p :: ps) true (e_bad e))). cbn [e_buf e_flush e_out e_peek e_err e_bad length app] in IH. apply IH; auto. destruct I; constructor; assumption.
  - unfold lexer_error_flush. assert (L1 : (Z.of_nat (length (e_buf e)) <= INT_MAX)%Z) by lia. destruct (flush_spec e true I L1) as (F1 & F2 & F3 & F4 & F5 & F6).
    specialize (IH (error_flush e true) F1). rewrite F2, F6 in IH. cbn [length] in IH. destruct IH as (A1 & A2 & A3 & A4 & A5); [exact W|exact NR|lia|].
    split; [exact A1|]. split; [congruence|]. split; [rewrite A3, F5; cbn [app]; rewrite <- app_assoc; reflexivity|]. split; [discriminate|]. intros FL _. apply A5; [congruence|reflexivity].
  - specialize (IH (peek_enter e)). cbn [peek_enter e_buf e_flush e_out e_peek e_err e_bad length] in IH. apply IH; auto. destruct I; constructor; assumption.
  - destruct W as [W1 W2]. unfold peek_leave. destruct (e_peek e) as [|p ps] eqn:EP; [cbn in W1; lia|]. cbn [length pred] in *.
    specialize (IH (Errs (e_buf e) (e_flush e) (e_out e) ps p (e_bad e))). cbn [e_buf e_flush e_out e_peek e_err e_bad] in IH. apply IH; auto. destruct I; constructor; assumption.
Qed.

End Errors.

(** A new lexer. *)
Definition start (flush : bool) : errs := Errs [] flush [] [] false false.

(** Messages are neither lost nor duplicated, and none is recorded while peeking: without
    resets, what has been printed followed by what is in the buffer is the concatenation of
    all messages reported outside of peeks; flushing prints all of it, no byte more or less,
    and a lexer told to flush keeps nothing back. *)
Theorem C53_flush : forall inp lx flush os, wf_ops inp lx 0 os -> existsb is_reset os = false -> (Z.of_nat (total (reported inp lx 0 os)) <= INT_MAX)%Z ->
  let e := erun inp lx os (start flush) in
  e_bad e = false /\ e_out e ++ e_buf e = concat (reported inp lx 0 os) /\
  (e_out (lexer_error_flush e) = concat (reported inp lx 0 os) /\ e_buf (lexer_error_flush e) = []) /\
  (flush = true -> e_out e = concat (reported inp lx 0 os)) /\
  (flush = false -> existsb is_flush os = false -> e_out e = []).
Proof.
  intros inp lx flush os W NR SZ. cbv zeta. assert (I : einv (start flush)) by (constructor; [reflexivity|intros []]).
  destruct (run_all inp lx os (start flush) I W NR SZ) as (A1 & A2 & A3 & A4 & A5). cbn [start e_out e_buf app e_flush e_peek length] in *.
  split; [apply A1|]. split; [exact A3|]. set (e := erun inp lx os (start flush)) in *.
  assert (LB : (Z.of_nat (length (e_buf e)) <= INT_MAX)%Z).
  { assert (Q : length (concat (reported inp lx 0 os)) = total (reported inp lx 0 os)) by apply total_concat.
    rewrite <- A3, app_length in Q. lia. }
  destruct (flush_spec e true A1 LB) as (_ & _ & _ & _ & F5 & F6). split; [split; [unfold lexer_error_flush; rewrite F5; exact A3|exact F6]|]. split.
  - intros ->. specialize (A5 eq_refl eq_refl). rewrite A5, app_nil_r in A3. exact A3.
  - intros -> NF. apply A4; auto.
Qed.
(** Resetting discards exactly what has not been printed yet: what happened before the reset
    leaves only what it printed. *)
Theorem C53_reset : forall inp lx flush os1 os2, wf_ops inp lx 0 os1 -> existsb is_reset os1 = false -> (Z.of_nat (total (reported inp lx 0 os1)) <= INT_MAX)%Z ->
  let e1 := erun inp lx os1 (start flush) in let e := lexer_error_reset e1 in
  e_out e = e_out e1 /\ e_buf e = [] /\ e_err e = false /\
  (wf_ops inp lx (length (e_peek e)) os2 -> existsb is_reset os2 = false -> (Z.of_nat (total (reported inp lx (length (e_peek e)) os2)) <= INT_MAX)%Z ->
   let e2 := erun inp lx os2 e in e_bad e2 = false /\ e_out (lexer_error_flush e2) = e_out e1 ++ concat (reported inp lx (length (e_peek e)) os2)).
Proof.
  intros inp lx flush os1 os2 W NR SZ. cbv zeta. split; [reflexivity|]. split; [reflexivity|]. split; [reflexivity|]. intros W2 NR2 SZ2.
  assert (I : einv (start flush)) by (constructor; [reflexivity|intros []]).
  destruct (run_all inp lx os1 (start flush) I W NR SZ) as (A1 & _). set (e1 := erun inp lx os1 (start flush)) in *.
  assert (I2 : einv (lexer_error_reset e1)) by (destruct A1; constructor; [assumption|intros []]).
  destruct (run_all inp lx os2 (lexer_error_reset e1) I2 W2 NR2 SZ2) as (B1 & B2 & B3 & _). set (e2 := erun inp lx os2 (lexer_error_reset e1)) in *. cbn [lexer_error_reset error_reset e_out e_buf app] in B3.
  split; [apply B1|].
  assert (NB : In NUL (e_buf e2) -> False) by (apply B1).
  (* the length of what is left to print *)
  assert (LB : (Z.of_nat (length (e_buf e2)) <= INT_MAX)%Z).
  { assert (G : forall os e, einv e -> wf_ops inp lx (length (e_peek e)) os -> existsb is_reset os = false -> (Z.of_nat (length (e_buf e) + total (reported inp lx (length (e_peek e)) os)) <= INT_MAX)%Z -> exists pre, e_out (erun inp lx os e) = e_out e ++ pre).
    { clear. induction os as [|o r IH]; intros e I W NR SZ; [exists []; rewrite app_nil_r; reflexivity|].
      destruct (run_all inp lx [o] e I) as (A1 & A2 & A3 & _); [destruct o; cbn [wf_ops] in *; tauto|cbn [existsb] in *; destruct (is_reset o); auto; discriminate| |].
      { destruct o; cbn [reported wf_ops] in *; rewrite ?app_nil_r; cbn [total]; try lia. destruct (length (e_peek e) =? 0); [|cbn in *; lia]. destruct (message inp lx path text trace t); cbn [app total] in *; lia. }
      change (erun inp lx (o :: r) e) with (erun inp lx r (erun inp lx [o] e)).
      assert (PK : length (e_peek (erun inp lx [o] e)) = match o with EEnter => S (length (e_peek e)) | ELeave => pred (length (e_peek e)) | _ => length (e_peek e) end).
      { cbn [erun fold_left]. destruct o; cbn [estep].
        - unfold lexer_error. cbn [e_peek e_buf e_flush e_out e_bad]. destruct (e_peek e); [|reflexivity]. destruct (message _ _ _ _ _ _) as [m|]; [|reflexivity]. unfold error_end, error_flush. cbn [e_flush e_buf]. destruct (negb false && negb (e_flush e)); [reflexivity|]. cbn [error_reset e_peek]. destruct (e_buf e ++ m); [reflexivity|]. destruct ((INT_MAX <? _)%Z); reflexivity.
        - unfold lexer_error_flush, error_flush. cbn [negb andb error_reset e_peek]. destruct (e_buf e); [reflexivity|]. destruct ((INT_MAX <? _)%Z); reflexivity.
        - reflexivity.
        - reflexivity.
        - unfold peek_leave. destruct (e_peek e); reflexivity. }
      assert (GO : exists pre, e_out (erun inp lx [o] e) = e_out e ++ pre /\ length (e_buf (erun inp lx [o] e)) <= length (e_buf e) + total (reported inp lx (length (e_peek e)) [o])).
      { cbn [erun fold_left]. destruct o; cbn [estep reported].
        - unfold lexer_error. cbn [e_peek e_buf e_flush e_out e_bad]. destruct (e_peek e) as [|p ps]; [|exists []; cbn [e_out e_buf]; rewrite app_nil_r; split; [reflexivity|lia]].
          destruct (message inp lx path text trace t) as [m|]; cbn [length Nat.eqb app total]; [|exists []; cbn [e_out e_buf]; rewrite app_nil_r; split; [reflexivity|lia]].
          unfold error_end, error_flush. cbn [e_flush e_buf e_out]. destruct (negb false && negb (e_flush e)); [exists []; cbn [e_out e_buf]; rewrite app_nil_r, app_length; split; [reflexivity|lia]|].
          cbn [error_reset e_buf e_out]. destruct (e_buf e ++ m); [exists []; cbn [e_out length]; rewrite app_nil_r; split; [reflexivity|lia]|]. destruct ((INT_MAX <? _)%Z); cbn [e_out length]; [exists []; rewrite app_nil_r; split; [reflexivity|lia]|eexists; split; [reflexivity|lia]].
        - unfold lexer_error_flush, error_flush. cbn [negb andb error_reset e_buf e_out]. destruct (e_buf e); [exists []; cbn [length]; rewrite app_nil_r; split; [reflexivity|lia]|]. destruct ((INT_MAX <? _)%Z); cbn [e_out length]; [exists []; rewrite app_nil_r; split; [reflexivity|lia]|eexists; split; [reflexivity|lia]].
        - exists []. cbn. rewrite app_nil_r. split; [reflexivity|lia].
        - exists []. cbn. rewrite app_nil_r. split; [reflexivity|lia].
        - exists []. unfold peek_leave. destruct (e_peek e); cbn; rewrite app_nil_r; split; try reflexivity; lia. }
      destruct GO as (pre & G1 & G2). destruct (IH (erun inp lx [o] e) A1) as (pre2 & E2).
      - rewrite PK. destruct o; cbn [wf_ops] in W; tauto.
      - cbn [existsb] in NR. apply orb_false_iff in NR. tauto.
      - rewrite PK. destruct o; cbn [reported total] in *; rewrite ?app_nil_r in *; try lia. destruct (length (e_peek e) =? 0); [|cbn [app total] in *; lia]. destruct (message inp lx path text trace t); cbn [app total] in *; lia.
      - exists (pre ++ pre2). rewrite E2, G1, app_assoc. reflexivity. }
    destruct (G os2 (lexer_error_reset e1) I2 W2 NR2 SZ2) as (pre & P). fold e2 in P. cbn [lexer_error_reset error_reset e_out] in P. rewrite P, <- app_assoc in B3. apply app_inv_head in B3.
    rewrite <- total_concat in SZ2. rewrite <- B3, app_length in SZ2. lia. }
  destruct (flush_spec e2 true B1 LB) as (_ & _ & _ & _ & F5 & F6). unfold lexer_error_flush. rewrite F5. exact B3.
Qed.
(** While peeking nothing is recorded or printed, whatever is reported; the error flag tells
    but is put back when the peek ends. *)
Theorem C53_peek : forall inp lx os e, (forall o, In o os -> exists path text trace t, o = EReport path text trace t) ->
  let e1 := erun inp lx os (peek_enter e) in
  e_out e1 = e_out e /\ e_buf e1 = e_buf e /\ (os <> [] -> e_err e1 = true) /\ peek_leave e1 = e.
Proof.
  intros inp lx os e H. cbv zeta.
  assert (G : forall os e, e_peek e <> [] -> (forall o, In o os -> exists path text trace t, o = EReport path text trace t) -> erun inp lx os e = Errs (e_buf e) (e_flush e) (e_out e) (e_peek e) (match os with [] => e_err e | _ => true end) (e_bad e)).
  { clear. induction os as [|o r IH]; intros e NE H; [destruct e; reflexivity|]. destruct (H o (or_introl eq_refl)) as (path & text & trace & t & ->).
    change (erun inp lx (EReport path text trace t :: r) e) with (erun inp lx r (lexer_error inp lx path text trace t e)). unfold lexer_error. cbn [e_peek e_buf e_flush e_out e_bad]. destruct (e_peek e) as [|p ps]; [congruence|].
    rewrite IH; [|discriminate|intros o Ho; apply H; right; exact Ho]. cbn [e_peek e_buf e_flush e_out e_bad e_err]. destruct r; reflexivity. }
  rewrite G; [|discriminate|exact H]. cbn [peek_enter e_out e_buf e_err e_peek e_flush e_bad peek_leave]. split; [reflexivity|]. split; [reflexivity|]. split; [destruct os; [congruence|reflexivity]|]. destruct e; reflexivity.
Qed.
(** A message names the file and the line, and shows the line on which the token starts with
    the token underlined, for a token of one line with a newline behind it. *)
Theorem C53_context : forall inp in_diff usetabs align ls path text trace t l,
  let lx := snd (tokenized inp in_diff usetabs align) in
  split_lines inp ls -> 1 <= t_lno t < length ls -> nth_error ls (t_lno t - 1) = Some l -> ~ In NUL l -> ~ In NL (text_bytes inp (t_str t)) ->
  message inp lx path text trace t = Some (cstr path ++ s2b ":" ++ dec (t_lno t) ++ s2b ": " ++ cstr text ++ cstr trace ++ [NL] ++
    l ++ repeat SP (t_cno t - 1) ++ repeat "^"%char (colwidth (text_bytes inp (t_str t)) (t_cno t) - t_cno t) ++ [NL]).
Proof.
  intros inp in_diff usetabs align ls path text trace t l lx SL H NT NN NLT.
  pose proof (C54_lines inp in_diff usetabs align ls (t_lno t) (S (t_lno t)) SL) as C. cbv zeta in C. fold lx in C. specialize (C ltac:(lia) ltac:(lia)). cbn [Nat.eqb] in C. replace (S (t_lno t) - t_lno t) with 1 in C by lia.
  assert (Q : concat (firstn 1 (skipn (t_lno t - 1) ls)) = l).
  { destruct (nth_error_split _ _ NT) as (A & B & -> & LA). rewrite <- LA. rewrite skipn_app, skipn_all, Nat.sub_diag. cbn. apply app_nil_r. }
  rewrite Q in C. unfold message. destruct (get_lines inp lx (t_lno t) (S (t_lno t))) as [| |o n]; try discriminate. cbn [slice_bytes] in C. inversion C as [C']. rewrite C'.
  assert (HL : has_line (text_bytes inp (t_str t)) = false).
  { unfold has_line. destruct (existsb _ _) eqn:E; [|reflexivity]. apply existsb_exists in E. destruct E as (c & Hc & Ec). apply Ascii.eqb_eq in Ec. subst c. contradiction. }
  rewrite HL. rewrite (cstr_id l NN). rewrite <- !app_assoc. reflexivity.
Qed.

Definition in53 : bytes := s2b "int a" ++ [NL] ++ TAB :: s2b "int b;" ++ [NL].
Definition lx53 : lexer := snd (tokenized in53 (fun _ => false) false (fun _ => None)).
Definition t53 : tok := Tok T_INT 0 (Src 7 3) 7 10 2 9.
Definition os53 : list eop := [EReport (s2b "a.c") (s2b "error at int") [] t53; EEnter; EReport (s2b "a.c") (s2b "quiet") [] t53; ELeave; EFlush; EReport (s2b "a.c") (s2b "two") [] t53].
Example C53_ex : wf_ops in53 lx53 0 os53 /\ existsb is_reset os53 = false /\ length (reported in53 lx53 0 os53) = 2 /\
  e_out (erun in53 lx53 os53 (start false)) = s2b "a.c:2: error at int" ++ [NL; TAB] ++ s2b "int b;" ++ [NL] ++ s2b "        ^^^" ++ [NL].
Proof. split; [|split; [|split]]; vm_compute; repeat split; try discriminate; auto; lia. Qed.

Print Assumptions C53_flush.
Print Assumptions C53_reset.
Print Assumptions C53_peek.
Print Assumptions C53_context.
