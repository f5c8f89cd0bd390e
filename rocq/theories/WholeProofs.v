(** What files are made of: bytes other than blanks, in the input, in the tokens and in the
    output. *)
From Verif Require Import SynModel RunProofs DeclProps Base StrModel StrProofs UtilModel UtilProofs DocModel DocProofs DocEmit DocFit DocProps.
From Verif Require Import TokenModel LexModel LexSpec LexRefine LexTrivia LexBlank CommentModel CommentProofs CommentProps LexMain LexAll LexSense LexProps.
From Verif Require Import LinesModel ParserModel ExprModel ExprProofs ExprProps ExprDocProps InkProofs WholeModel.
Local Close Scope Q_scope.
Local Open Scope nat_scope.

(** * Bytes other than blanks *)
Definition ink (s : bytes) : bytes := filter (fun c => negb (isspace c)) s.
Lemma ink_app : forall a b, ink (a ++ b) = ink a ++ ink b.
Proof. intros. apply filter_app. Qed.
Lemma ink_concat : forall l, ink (concat l) = concat (map ink l).
Proof. induction l as [|x l IH]; [reflexivity|]. cbn [concat map]. rewrite ink_app, IH. reflexivity. Qed.
Lemma ink_none : forall s, (forall c, In c s -> isspace c = true) -> ink s = [].
Proof. induction s as [|c s IH]; intros H; [reflexivity|]. cbn [ink filter]. rewrite (H c (or_introl eq_refl)). apply IH. intros d I. apply H. right. exact I. Qed.
Lemma ink_bl : forall s, Forall bl s -> ink s = [].
Proof. intros s H. apply ink_none. rewrite Forall_forall in H. intros c I. destruct (H c I) as [->|[->|[->|[->| ->]]]]; reflexivity. Qed.
Lemma ink_sp : forall s, Forall sp s -> ink s = [].
Proof. intros s H. apply ink_none. rewrite Forall_forall in H. intros c I. destruct (H c I) as [->|[->| ->]]; reflexivity. Qed.
Lemma ink_lw : forall s, Forall lw s -> ink s = [].
Proof. intros s H. apply ink_none. rewrite Forall_forall in H. intros c I. destruct (H c I) as [->|[->|[->| ->]]]; reflexivity. Qed.
Lemma ink_bn : forall s, Forall bn s -> ink s = [].
Proof. intros s H. apply ink_none. rewrite Forall_forall in H. intros c I. destruct (H c I) as [[->| ->]| ->]; reflexivity. Qed.
Lemma ink_strip : forall s, strip s = [] -> ink s = [].
Proof. intros s H. apply ink_bn, blank_bn, H. Qed.
Lemma ink_rendered : forall ts o, rendered ts o -> ink o = concat (map ink ts).
Proof.
  induction 1 as [w W|ts o c z w H IH Z W]; [apply ink_bn, W|]. rewrite map_app, concat_app, !ink_app, IH. cbn [map concat]. rewrite app_nil_r, ink_app, (ink_bn w W), (ink_bn z), !app_nil_r; [reflexivity|]. eapply Forall_impl; [|exact Z]. intros c0 C0. left. exact C0.
Qed.
Lemma ink_solid : forall l, concat (map ink (filter solid_text l)) = concat (map ink l).
Proof.
  induction l as [|s l IH]; [reflexivity|]. cbn [filter map concat]. unfold solid_text at 1. destruct (beq (strip s) []) eqn:E; cbn [negb]; [apply beq_eq in E; rewrite (ink_strip s E); exact IH|]. cbn [map concat]. rewrite IH. reflexivity.
Qed.
Lemma sub_filter : forall A (p : A -> bool) a b, ExprProps.sub a b -> ExprProps.sub (filter p a) (filter p b).
Proof. induction 1 as [l|x a b H IH|x a b H IH]; cbn [filter]; [constructor|destruct (p x); [constructor|]; exact IH|destruct (p x); [constructor|]; exact IH]. Qed.
Lemma sub_firstn : forall A n (l : list A), ExprProps.sub (firstn n l) l.
Proof. intros A n l. rewrite <- (firstn_skipn n l) at 2. rewrite <- (app_nil_r (firstn n l)) at 1. apply sub_app; [apply sub_refl|constructor]. Qed.
Lemma sub_trans : forall A (b c : list A), ExprProps.sub b c -> forall a, ExprProps.sub a b -> ExprProps.sub a c.
Proof.
  induction 1 as [l|x b c H IH|x b c H IH]; intros a S1; [inversion S1; constructor|inversion S1; subst; constructor; auto|constructor; auto].
Qed.
Lemma sub_concat : forall A (f g : A -> bytes) a b, (forall x, In x b -> ExprProps.sub (f x) (g x)) -> ExprProps.sub a b -> ExprProps.sub (concat (map f a)) (concat (map g b)).
Proof.
  intros A f g a b H S1. induction S1 as [l|x a b S1 IH|x a b S1 IH]; cbn [map concat].
  - constructor.
  - apply sub_app; [apply H; left; reflexivity|apply IH; intros y Y; apply H; right; exact Y].
  - change (concat (map f a)) with ([] ++ concat (map f a)). apply sub_app; [constructor|apply IH; intros y Y; apply H; right; exact Y].
Qed.

Section File.
Variable inp : bytes.
Variable in_diff : nat -> bool.
Variable usetabs : bool.
Variable align : bytes -> option bytes.
Notation bytes_of t := (text_bytes inp (t_str t)).
Notation toks := (tokens inp in_diff usetabs align).
Set Default Proof Using "All".

(** The input. *)
Lemma tiles_le : forall ts a b, tiles inp a ts b -> a <= b.
Proof. induction ts as [|t ts IH]; intros a b H; inversion H; subst; [assumption|]. match goal with X : tiles _ _ _ _ |- _ => apply IH in X end. lia. Qed.
Lemma ink_tiles : forall ts a b, b <= length inp -> tiles inp a ts b -> ink (slice inp a b) = concat (map (fun t => ink (src inp t)) ts).
Proof.
  induction ts as [|t ts IH]; intros a b B H; inversion H; subst; [apply ink_bl; assumption|]. cbn [map concat].
  assert (T : t_end t <= b) by (eapply tiles_le; eassumption).
  rewrite <- (IH (t_end t) b B H7). unfold src. replace (slice inp a b) with (slice inp a (t_off t) ++ slice inp (t_off t) (t_end t) ++ slice inp (t_end t) b).
  - rewrite !ink_app, (ink_bl (slice inp a (t_off t))) by assumption. reflexivity.
  - rewrite !slice_app by lia. reflexivity.
Qed.
Lemma ink_input : ink inp = concat (map (fun k => concat (map (fun t => ink (src inp t)) (token_toks k))) toks).
Proof.
  pose proof (ink_tiles _ 0 (length inp) (le_n _) (C01_tiling inp in_diff usetabs align)) as H. unfold slice in H. cbn [skipn] in H. rewrite Nat.sub_0_r, firstn_all in H. rewrite H. clear H. unfold all_toks. induction toks as [|k l IH]; [reflexivity|]. cbn [flat_map map concat]. rewrite map_app, concat_app, IH. reflexivity.
Qed.

(** Flags of comments behind tokens. *)
Definition shows (t : tok) : Prop :=
  (t_type t = T_COMMENT -> has_flag (t_flags t) F_DISCARD = false /\ has_flag (t_flags t) F_OPTLINE = false) /\
  (t_type t = T_SPACE -> has_flag (t_flags t) F_DISCARD = true \/ bytes_of t = [NL]).
Lemma comment_shows : forall v block t v', p_comment inp in_diff (ctrim usetabs) v block = (Some t, v') -> shows t.
Proof.
  intros v block t v' H. split; [|intros X; unfold p_comment in H; destruct (p_again _ _ _ _ _ _) as [[[[s ol] c99] e]|]; [|discriminate]; inversion H; subst; clear H; unfold p_comment_tok in X; destruct ol; destruct (ctrim usetabs _); discriminate X].
  intros _. unfold p_comment in H. destruct (p_again _ _ _ _ _ _) as [[[[s ol] c99] e]|]; [|discriminate]. inversion H; subst. unfold p_comment_tok. cbv zeta. cbn [t_str p_tok text_bytes].
  set (raw := slice inp _ _). assert (F : forall t1, t1 = (if ol then set_flags (p_tok inp in_diff T_COMMENT (if c99 then F_COMMENT_C99 else 0%N) None s (p_comment_end inp block e)) (N.lor (t_flags (p_tok inp in_diff T_COMMENT (if c99 then F_COMMENT_C99 else 0%N) None s (p_comment_end inp block e))) (sense_clang_format raw)) else p_tok inp in_diff T_COMMENT (if c99 then F_COMMENT_C99 else 0%N) None s (p_comment_end inp block e)) -> has_flag (t_flags t1) F_DISCARD = false /\ has_flag (t_flags t1) F_OPTLINE = false).
  { intros t1 ->. destruct (sense_values raw) as [E|[E|E]]; destruct ol; cbn [set_flags t_flags p_tok]; rewrite ?E; destruct (in_diff _), c99; vm_compute; auto. }
  destruct (ctrim usetabs raw); [specialize (F _ eq_refl); destruct ol; exact F|exact (F _ eq_refl)].
Qed.
Lemma suffixes_shown : forall fuel v suf, Forall shows suf -> Forall shows (fst (p_suffix_comments inp in_diff (ctrim usetabs) fuel v suf)).
Proof.
  induction fuel as [|f IH]; intros v suf H; cbn [p_suffix_comments]; [exact H|]. destruct (p_comment inp in_diff (ctrim usetabs) v false) as [[c|] v1] eqn:E; [|exact H]. apply IH. apply Forall_app. split; [exact H|]. constructor; [|constructor]. eapply comment_shows, E.
Qed.
Lemma read_shown : forall v, Forall shows (k_suf (fst (p_read inp in_diff (ctrim usetabs) align v))).
Proof.
  intros v. unfold p_read. destruct (p_prefixes _ _ _ _ _ _ _) as [ps v1]. destruct (p_main inp in_diff v1) as [tk v2]. unfold p_suffixes.
  assert (H1 : Forall shows (fst (if has_flag (t_flags tk) F_DISCARD then ([], v2) else p_suffix_comments inp in_diff (ctrim usetabs) (FUEL inp) v2 []))) by (destruct (has_flag (t_flags tk) F_DISCARD); [constructor|apply suffixes_shown; constructor]).
  destruct (if has_flag (t_flags tk) F_DISCARD then _ else _) as [s1 v3]. cbn [fst] in H1.
  assert (H2 : Forall shows (fst (if length s1 =? 0 then match p_spaces_tok inp in_diff v3 with Some t => ([set_flags t (N.lor (t_flags t) (N.lor F_OPTSPACE F_DISCARD))], p_spaces inp v3) | None => ([], p_spaces inp v3) end else (s1, v3)))).
  { destruct (length s1 =? 0); [|exact H1]. unfold p_spaces_tok. destruct (_ =? _); cbn [fst]; [constructor|]. constructor; [|constructor]. split; intros X; [vm_compute in X; discriminate X|]. left. cbn [set_flags t_flags p_tok]. destruct (in_diff _); reflexivity. }
  destruct (if length s1 =? 0 then _ else _) as [s2 v4]. cbn [fst] in H2. cbn [fst k_suf]. unfold p_lines_tok. destruct (fst (p_lines inp 0 v4) =? 0); [exact H2|]. apply Forall_app. split; [exact H2|]. constructor; [|constructor]. destruct (_ =? 1); split; intros X; try discriminate X; right; reflexivity.
Qed.
Lemma all_shown : forall fuel lx v, R inp lx v -> Forall (fun k => Forall shows (k_suf k)) (fst (read_all inp in_diff (ctrim usetabs) align fuel lx)).
Proof.
  induction fuel as [|f IH]; intros lx v HR; cbn [read_all]; [constructor|].
  destruct (clang_read_R inp in_diff (ctrim usetabs) align (ctrim_nl usetabs) lx v HR) as (lx1 & E1 & HR1 & H1). rewrite E1. pose proof (read_shown v) as HS.
  destruct (is_eof _); [constructor; [exact HS|constructor]|]. specialize (IH lx1 _ HR1). destruct (read_all inp in_diff (ctrim usetabs) align f lx1) as [r lx2]. cbn [fst] in *. constructor; assumption.
Qed.

(** Texts of tokens. *)
Definition plain (t : tok) : Prop := t_type t = T_COMMENT -> single inp (ctrim usetabs) t \/ verbatim inp t.
Lemma trimmed_ink : forall s, ink (trimmed (ctrim usetabs) s) = ink s.
Proof.
  intros s. unfold trimmed, ctrim. destruct (comment_trim usetabs s) as [[s'|]|] eqn:E; [|reflexivity|reflexivity]. apply (C23_nonblank usetabs s s' E).
Qed.
Definition saved (f : bytes -> bytes -> Prop) : Prop := forall s s', incl s inp -> align s = Some s' -> f (ink s') (ink s).
Lemma slice_incl : forall a b, incl (slice inp a b) inp.
Proof. intros a b c H. unfold slice in H. rewrite <- (firstn_skipn a inp). apply in_or_app. right. rewrite <- (firstn_skipn (b - a) (skipn a inp)). apply in_or_app. left. exact H. Qed.
Lemma text_ink : forall k t, token_ok inp in_diff (ctrim usetabs) align k -> In t (token_toks k) -> saved (fun a b => a = b) -> plain t -> ink (bytes_of t) = ink (src inp t).
Proof.
  intros k t (H1 & (_ & H2 & _) & _ & H3) I SA PL. rewrite Forall_forall in H1, H3. unfold token_toks in I. apply in_app_or in I.
  assert (CO : comment_ok inp (ctrim usetabs) t -> ink (bytes_of t) = ink (src inp t)).
  { intros (T1 & _). destruct (PL T1) as [(_ & E)|E]; rewrite E; [apply trimmed_ink|reflexivity]. }
  destruct I as [I|[<-|I]].
  - destruct (H1 t I) as [C|(_ & _ & _ & _ & [(_ & A)|(_ & A)])]; [apply CO, C|apply (SA _ _ (slice_incl _ _) A)|rewrite A; reflexivity].
  - rewrite H2. reflexivity.
  - destruct (H3 t I) as [C|(_ & _ & _ & [(A & B)|(A & _ & B)])]; [apply CO, C|rewrite B; reflexivity|]. rewrite B, (ink_lw _ A). reflexivity.
Qed.
(** Trimming does not add bytes if tabs are used and there are no carriage returns. *)
Lemma col_length : forall s, Forall (fun c => c = TAB \/ c = SP) s -> forall p, display_col s p / 8 + display_col s p mod 8 <= length s + p / 8 + p mod 8.
Proof.
  induction 1 as [|c s [->| ->] H IH]; intros p; [unfold display_col; cbn [fold_left length]; lia|..]; cbn [display_col fold_left length]; fold (display_col s (col_step p TAB)); fold (display_col s (col_step p SP)).
  - specialize (IH (col_step p TAB)). change (col_step p TAB) with (8 * (p / 8 + 1)) in *. pose proof (Nat.div_mod p 8). pose proof (Nat.mod_upper_bound p 8).
    assert (E1 : 8 * (p / 8 + 1) / 8 = p / 8 + 1) by (rewrite Nat.mul_comm; apply Nat.div_mul; lia). assert (E2 : (8 * (p / 8 + 1)) mod 8 = 0) by (rewrite Nat.mul_comm; apply Nat.mod_mul; lia). lia.
  - specialize (IH (col_step p SP)). change (col_step p SP) with (p + 1) in *. pose proof (Nat.div_mod p 8). pose proof (Nat.mod_upper_bound p 8). pose proof (Nat.div_mod (p+1) 8). pose proof (Nat.mod_upper_bound (p+1) 8). lia.
Qed.
Lemma rstrip_length : forall l, length (rstrip l) <= length l.
Proof. induction l as [|c l IH]; [auto|]. cbn [rstrip]. destruct (rstrip l); [destruct (isspace c); cbn; lia|cbn [length] in *; lia]. Qed.
Lemma span_firstn : forall p (l : bytes), Forall (fun c => p c = true) (firstn (span_len p l) l).
Proof. induction l as [|c l IH]; [constructor|]. cbn [span_len]. destruct (p c) eqn:E; [constructor; assumption|constructor]. Qed.
Lemma trim_line_length : forall l, length (trim_line true l) <= length l.
Proof.
  intros l. unfold trim_line. set (n := span_len wsp l). destruct (_ && _); [|apply rstrip_length]. rewrite app_length. pose proof (rstrip_length (skipn n l)) as R1. rewrite skipn_length in R1.
  rewrite strwidth_spec. destruct (strindent (display_col (firstn n l) 0) true 0) as [o p] eqn:E. apply strindent_spec in E. destruct E as (_ & _ & _ & E & _). destruct (E eq_refl) as (t & s & E1 & E2 & E3). cbn [fst]. rewrite E1, app_length, !repeat_length.
  assert (C : Forall (fun c => c = TAB \/ c = SP) (firstn n l)).
  { eapply Forall_impl; [|apply (span_firstn wsp l)]. intros c H. unfold wsp in H. apply orb_true_iff in H. destruct H as [H|H]; apply Ascii.eqb_eq in H; auto. }
  pose proof (col_length _ C 0) as L1. rewrite <- E3 in L1. rewrite firstn_length in L1. assert (D : (8 * t + s) / 8 = t) by (rewrite Nat.mul_comm, Nat.div_add_l, Nat.div_small by lia; lia). assert (M : (8 * t + s) mod 8 = s) by (rewrite Nat.add_comm, Nat.mul_comm, Nat.mod_add, Nat.mod_small by lia; lia). cbn in D, M, L1. lia.
Qed.
Lemma join_length : forall ls, length (join_lines [NL] (map (trim_line true) ls)) <= length (join_lines [NL] ls).
Proof. induction ls as [|l ls IH]; [auto|]. unfold join_lines in *. cbn [map concat]. rewrite !app_length. pose proof (trim_line_length l). cbn [length]. lia. Qed.
Lemma trimmed_length : forall s, ~ In CR s -> length (trimmed (ctrim true) s) <= length s.
Proof.
  intros s N. unfold trimmed, ctrim. destruct (comment_trim true s) as [[s'|]|] eqn:E; [|auto|auto]. apply comment_trim_some in E. destruct E as (ls & l & E & _ & ->).
  assert (C : ends_crlf s = false). { unfold ends_crlf. destruct (rev s) as [|c1 [|c2 r]] eqn:R1; try reflexivity. destruct (Ascii.eqb_spec c2 CR) as [->|]; [|apply andb_false_r]. exfalso. apply N, in_rev. rewrite R1. right. left. reflexivity. }
  rewrite C, E. apply join_length.
Qed.
(** Comments the text of which is not longer than their source. *)
Definition lean (t : tok) : Prop := t_type t = T_COMMENT -> length (bytes_of t) <= length (src inp t) \/ single inp (ctrim usetabs) t.
Lemma slice_in : forall (c : byte) a b, In c (slice inp a b) -> In c inp.
Proof. intros c a b H. unfold slice in H. apply (@In_firstn ascii) in H || idtac. rewrite <- (firstn_skipn a inp). apply in_or_app. right. rewrite <- (firstn_skipn (b - a) (skipn a inp)). apply in_or_app. left. exact H. Qed.
Lemma all_lean : forall t, In t (all_toks toks) -> usetabs = true -> ~ In CR inp -> lean t.
Proof.
  intros t I U N T. destruct (all_comments _ _ _ _ _ I T) as (_ & (P & _) & _ & [S1|(n & R1 & N1 & _ & _ & E)]); [right; exact S1|left]. rewrite E, U. pose proof (trimmed_length (slice inp n (t_end t)) (fun X => N (slice_in _ _ _ X))) as L1. rewrite slice_length in L1 by lia.
  unfold src. rewrite (slice_length inp (t_off t) (t_end t)) by lia. unfold slice at 1. rewrite firstn_length. lia.
Qed.
Lemma text_sub : forall k t, token_ok inp in_diff (ctrim usetabs) align k -> In t (token_toks k) -> saved (fun a b => ExprProps.sub a b) -> lean t -> ExprProps.sub (ink (bytes_of t)) (ink (src inp t)).
Proof.
  intros k t (H1 & (_ & H2 & _) & _ & H3) I SA LE. rewrite Forall_forall in H1, H3. unfold token_toks in I. apply in_app_or in I.
  assert (CO : comment_ok inp (ctrim usetabs) t -> ExprProps.sub (ink (bytes_of t)) (ink (src inp t))).
  { intros (T & (P & _) & _ & CO). destruct (LE T) as [LT|(_ & E)]; [|rewrite E, trimmed_ink; apply sub_refl]. destruct CO as [(_ & E)|(n & _ & N1 & _ & _ & E)]; rewrite E in *; [rewrite trimmed_ink; apply sub_refl|]. apply sub_filter. unfold src in *. rewrite (slice_length inp (t_off t) (t_end t)) in LT by lia.
    set (m := n + length (trimmed (ctrim usetabs) (slice inp n (t_end t)))) in *. clearbody m. unfold slice in *. set (r := skipn (t_off t) inp) in *. rewrite firstn_length in LT.
    assert (F : firstn (m - t_off t) r = firstn (Nat.min (m - t_off t) (t_end t - t_off t)) r).
    { destruct (Nat.le_gt_cases (m - t_off t) (t_end t - t_off t)); [rewrite Nat.min_l by lia; reflexivity|]. rewrite Nat.min_r by lia. rewrite !firstn_all2; [reflexivity|lia|lia]. }
    rewrite F, <- firstn_firstn. apply sub_firstn. }
  destruct I as [I|[<-|I]].
  - destruct (H1 t I) as [C|(_ & _ & _ & _ & [(_ & A)|(_ & A)])]; [apply CO, C|apply (SA _ _ (slice_incl _ _) A)|rewrite A; apply sub_refl].
  - rewrite H2. apply sub_refl.
  - destruct (H3 t I) as [C|(_ & _ & _ & [(A & B)|(A & _ & B)])]; [apply CO, C|rewrite B; apply sub_refl|]. rewrite B. constructor.
Qed.

(** Texts are not empty. *)
Lemma slice_nth : forall (c : byte) a m b, a <= m < b -> nth_error inp m = Some c -> In c (slice inp a b).
Proof.
  intros c a m b H E. apply (nth_error_In _ (m - a)). unfold slice. rewrite nth_error_firstn by lia. rewrite nth_error_skipn_add. replace (a + (m - a)) with m by lia. exact E.
Qed.
Lemma occurs_first : forall c s m, LexSpec.occurs inp (c :: s) m -> nth_error inp m = Some c.
Proof. intros c s m (r & H). rewrite nth_error_skipn, H. reflexivity. Qed.
Lemma c99_lt : forall m n, c99_span inp m n -> m < n.
Proof. induction 1 as [|m n m' e _ H _ (_ & ? & _) _ IH]; lia. Qed.
Lemma comment_ink : forall o e, comment_text inp o e -> In "/"%char (ink (slice inp o e)) /\ o < e <= length inp.
Proof.
  intros o e (m & n & H1 & H2 & _ & H3 & _).
  assert (C : nth_error inp m = Some "/"%char /\ m < n).
  { destruct H3 as [(O & X)|X].
    - apply occurs_first in O. split; [exact O|]. destruct X as [(k & ? & ? & _)|(-> & _)]; [lia|]. apply nth_error_Some. congruence.
    - split; [inversion X as [? ? O|? ? ? ? O]; subst; eapply occurs_first, O|apply c99_lt, X]. }
  split; [|lia]. apply filter_In. split; [|reflexivity]. eapply slice_nth; [|apply C]. lia.
Qed.
Lemma run_lt : forall o e, comment_run inp o e -> o < e <= length inp.
Proof. induction 1 as [o e H|o n e _ IH H _]; apply comment_ink in H; lia. Qed.
Lemma full : forall t, bytes_of t <> [] -> verb inp t = [Verbatim (bytes_of t)].
Proof. intros t H. unfold verb. destruct (bytes_of t); [congruence|reflexivity]. Qed.
Lemma comment_full : forall t, comment_ok inp (ctrim usetabs) t -> bytes_of t <> [].
Proof.
  intros t (_ & _ & _ & [(H & E)|(n & R1 & _ & _ & _ & E)]); rewrite E; intros X.
  - apply comment_ink in H. destruct H as [H _]. unfold src in *. pose proof (trimmed_ink (slice inp (t_off t) (t_end t))) as Y. rewrite X in Y. rewrite <- Y in H. exact H.
  - apply (f_equal (@length byte)) in X. unfold slice at 1 in X. rewrite firstn_length, skipn_length in X. apply run_lt in R1. cbn [length] in X. lia.
Qed.
Lemma cpp_full : forall t, cpp_ok inp in_diff align t -> saved (fun a b => a = b) -> bytes_of t <> [].
Proof.
  intros t (P & LT & _ & (m & n & H1 & H2 & _ & (x & y & H3 & H4 & _ & _ & (H5 & _) & _ & H6 & _) & _) & H) SA X.
  assert (C : In "#"%char (ink (src inp t))). { apply filter_In. split; [|reflexivity]. eapply slice_nth; [|exact H3]. lia. }
  assert (E : ink (bytes_of t) = ink (src inp t)) by (destruct H as [(_ & A)|(_ & A)]; [apply (SA _ _ (slice_incl _ _) A)|rewrite A; reflexivity]). rewrite <- E, X in C. exact C.
Qed.

(** Documents of tokens. *)
Lemma tokdoc_same : forall lx k nx, In k toks -> saved (fun a b => a = b) ->
  (forall t, In t (k_pre k) -> has_flag (t_flags t) F_COMMENT_CLANG_FORMAT_ON = false /\ has_flag (t_flags t) F_COMMENT_CLANG_FORMAT_OFF = false) ->
  (forall n, nx = Some n -> has_flag (t_flags (k_tok n)) F_BRANCH = false) ->
  doc_token inp lx false k nx parser_init = (match tokdoc inp k with Concat l => l | _ => [] end, parser_init).
Proof.
  intros lx k nx I SA CF NB. pose proof (C01_tokens inp in_diff usetabs align) as T. rewrite Forall_forall in T. destruct (T k I) as (H1 & _ & _ & H3). unfold doc_token, tokdoc. cbn [p_unmute parser_init andb].
  assert (P : doc_prefixes inp lx false (k_pre k) parser_init = (flat_map (verb inp) (k_pre k), parser_init)).
  { clear T I H3 NB. induction (k_pre k) as [|t l IH]; [reflexivity|]. inversion H1 as [|? ? A B]; subst. cbn [doc_prefixes flat_map]. destruct (CF t (or_introl eq_refl)) as [-> ->]. rewrite IH; [|intros t' I'; apply CF; right; exact I'|exact B]. cbn [app]. rewrite full; [reflexivity|]. destruct A as [A|A]; [apply comment_full, A|apply cpp_full; assumption]. }
  fold parser_init. rewrite P. replace (match nx with Some n => has_flag (t_flags (k_tok n)) F_BRANCH | None => false end) with false by (destruct nx as [n|]; [rewrite (NB n eq_refl); reflexivity|reflexivity]). rewrite app_nil_r. cbn [app]. f_equal. f_equal. f_equal.
  clear P T I H1 CF NB SA. induction (k_suf k) as [|t l IH]; [reflexivity|]. inversion H3 as [|? ? A B]; subst. cbn [flat_map]. rewrite IH by exact B. f_equal. unfold doc_suffix, suffix_doc. destruct (has_flag _ _); [reflexivity|]. destruct (has_flag _ _); [reflexivity|]. rewrite full; [reflexivity|]. destruct A as [A|(_ & PO & LT & [(_ & A)|(_ & _ & A)])]; [apply comment_full, A| |rewrite A; discriminate].
  rewrite A. unfold src. intros X. apply (f_equal (@length byte)) in X. destruct PO as [PO _]. rewrite slice_length in X by lia. cbn [length] in X. lia.
Qed.
Lemma solid_leaf : forall v s, filter solid_text (map snd (text_of v s 0)) = filter solid_text [s].
Proof.
  intros v s. unfold text_of. cbn [Z.eqb andb]. destruct (beq s [NL]) eqn:E1; [apply beq_eq in E1; subst s; reflexivity|]. destruct (beq s [SP]) eqn:E2; [apply beq_eq in E2; subst s; reflexivity|]. reflexivity.
Qed.
Definition visible (t : tok) : bool := negb (has_flag (t_flags t) F_DISCARD) && negb (has_flag (t_flags t) F_OPTLINE).
Lemma tokdoc_printable : forall k, printable (tokdoc inp k) /\ inked (tokdoc inp k) = filter solid_text (map (fun t => bytes_of t) (k_pre k ++ k_tok k :: filter visible (k_suf k))).
Proof.
  intros k. unfold tokdoc.
  assert (V : forall t, Forall printable (verb inp t) /\ flat_map inked (verb inp t) = filter solid_text [bytes_of t]).
  { intros t. unfold verb. destruct (bytes_of t) as [|c b]; [split; [constructor|reflexivity]|]. split; [constructor; [split; [discriminate|reflexivity]|constructor]|]. cbn [flat_map]. rewrite app_nil_r. apply solid_leaf. }
  assert (F : Forall printable (flat_map (verb inp) (k_pre k) ++ Literal (bytes_of (k_tok k)) :: flat_map (suffix_doc inp) (k_suf k))).
  { apply Forall_app. split; [apply Forall_flat_map, Forall_forall; intros t _; apply V|]. constructor; [split; [exact Logic.I|reflexivity]|]. apply Forall_flat_map, Forall_forall. intros t _. unfold suffix_doc. destruct (has_flag _ _); [constructor|]. destruct (has_flag _ _); [constructor; [split; [exact Logic.I|reflexivity]|constructor]|apply V]. }
  split.
  - destruct (printable_seq _ F) as [S1 S2]. split; [|exact S1]. cbn [wf]. clear - F. induction F as [|d l [P _] _ IH]; cbn [fold_right]; [exact Logic.I|split; assumption].
  - unfold inked at 1. rewrite inked_seq by exact F. rewrite flat_map_app, map_app, filter_app. f_equal.
    + clear - V. induction (k_pre k) as [|t l IH]; [reflexivity|]. cbn [flat_map]. rewrite flat_map_app, IH. change (map (fun t0 => bytes_of t0) (t :: l)) with ([bytes_of t] ++ map (fun t0 => bytes_of t0) l). rewrite filter_app. f_equal. apply V.
    + cbn [flat_map map]. change (bytes_of (k_tok k) :: map (fun t => bytes_of t) (filter visible (k_suf k))) with ([bytes_of (k_tok k)] ++ map (fun t => bytes_of t) (filter visible (k_suf k))). rewrite filter_app. f_equal; [apply solid_leaf|].
      clear - V. induction (k_suf k) as [|t l IH]; [reflexivity|]. cbn [flat_map filter]. rewrite flat_map_app, IH. unfold suffix_doc, visible. destruct (has_flag _ _); [reflexivity|]. destruct (has_flag _ _); [reflexivity|]. cbn [negb andb map]. change (filter solid_text (?a :: ?l)) with (filter solid_text ([a] ++ l)). rewrite filter_app. f_equal. apply V.
Qed.
(** The tokens, comments and directives of a token read, without the blanks behind it. *)
Definition words (k : token) : list tok := k_pre k ++ k_tok k :: filter (fun t => negb (ttype_eqb (t_type t) T_SPACE)) (k_suf k).
Lemma shown_all : Forall (fun k => Forall shows (k_suf k)) toks.
Proof. apply (all_shown _ _ 0), R_init. Qed.
Lemma words_ink : forall k (f : tok -> bytes), In k toks -> (forall t, In t (k_suf k) -> t_type t = T_SPACE -> f t = []) -> concat (map f (words k)) = concat (map f (token_toks k)).
Proof.
  intros k f I H. unfold words, token_toks. rewrite !map_app, !concat_app. f_equal. cbn [map concat]. f_equal. clear I. induction (k_suf k) as [|t l IH]; [reflexivity|]. cbn [filter map concat]. destruct (ttype_eqb (t_type t) T_SPACE) eqn:E; cbn [negb map concat].
  - apply ExprProofs.ttype_eqb_spec in E. rewrite (H t (or_introl eq_refl) E). apply IH. intros t' I'. apply H. right. exact I'.
  - f_equal. apply IH. intros t' I'. apply H. right. exact I'.
Qed.
Lemma tokdoc_words : forall k, In k toks -> inked (tokdoc inp k) = filter solid_text (map (fun t => bytes_of t) (words k)).
Proof.
  intros k I. rewrite (proj2 (tokdoc_printable k)). unfold words. rewrite !map_app, !filter_app. f_equal. cbn [map filter].
  pose proof shown_all as S1. rewrite Forall_forall in S1. specialize (S1 k I). pose proof (C01_tokens inp in_diff usetabs align) as T. rewrite Forall_forall in T. destruct (T k I) as (_ & _ & _ & S2). clear I T.
  assert (E : filter solid_text (map (fun t => bytes_of t) (filter visible (k_suf k))) = filter solid_text (map (fun t => bytes_of t) (filter (fun t => negb (ttype_eqb (t_type t) T_SPACE)) (k_suf k)))).
  { induction (k_suf k) as [|t l IH]; [reflexivity|]. inversion S1 as [|? ? (A1 & A2) S1']; inversion S2 as [|? ? B S2']; subst. specialize (IH S1' S2'). cbn [filter]. destruct B as [(B & _)|(B & _)]; rewrite B.
    - destruct (A1 B) as [E1 E2]. unfold visible at 1. rewrite E1, E2. cbn [negb andb map filter ttype_eqb]. change (ttype_eqb T_COMMENT T_SPACE) with false. cbn [negb map filter]. rewrite IH. reflexivity.
    - change (ttype_eqb T_SPACE T_SPACE) with true. cbn [negb]. unfold visible at 1. destruct (A2 B) as [E1|E1]; [rewrite E1; exact IH|]. destruct (negb _ && negb _); [|exact IH]. cbn [map filter]. rewrite E1. exact IH. }
  rewrite E. reflexivity.
Qed.
Lemma space_ink : forall k, In k toks -> forall t, In t (k_suf k) -> t_type t = T_SPACE -> ink (bytes_of t) = [] /\ ink (src inp t) = [].
Proof.
  intros k I t J E. pose proof (C01_tokens inp in_diff usetabs align) as T. rewrite Forall_forall in T. destruct (T k I) as (_ & _ & _ & S2). rewrite Forall_forall in S2. destruct (S2 t J) as [(X & _)|(_ & _ & _ & [(A & B)|(A & _ & B)])]; [congruence|rewrite B|rewrite B].
  - split; apply ink_sp, A.
  - split; [reflexivity|apply ink_lw, A].
Qed.
Lemma tokdoc_ink : forall k, In k toks -> concat (map ink (inked (tokdoc inp k))) = concat (map (fun t => ink (bytes_of t)) (token_toks k)).
Proof.
  intros k I. rewrite tokdoc_words by exact I. rewrite ink_solid, map_map. apply words_ink; [exact I|]. intros t J E. apply (space_ink k I t J E).
Qed.

(** Tokens that are not discarded. *)
Lemma no_discards : (forall k, In k toks -> is_discard k = false) -> fst (tokenized inp in_diff usetabs align) = Some toks.
Proof.
  intros H. unfold tokenize. destruct (read_all inp in_diff (ctrim usetabs) align (FUEL inp) lexer_init) as [l lx]. cbn [fst] in *.
  assert (E : forall i, discard_indices i l = []) by (induction l as [|k l IH]; intros i; [reflexivity|]; cbn [discard_indices]; rewrite (H k (or_introl eq_refl)); apply IH; intros k' I'; apply H; right; exact I'). rewrite E. reflexivity.
Qed.
Lemma ends_toks : exists k, ends toks k /\ k_suf k = [].
Proof.
  destruct (C02_eof inp in_diff usetabs align) as (ks & k & E & H1 & _ & H2 & H3). exists k. split; [|exact H2]. exists ks. split; [exact E|]. split; [apply is_eq, H1|]. eapply Forall_impl; [|exact H3]. intros k' [N _]. destruct (is T_EOF k') eqn:X; [|reflexivity]. apply is_eq in X. contradiction.
Qed.
Lemma semi_text : forall k, In k toks -> is T_SEMI k = true -> src inp (k_tok k) = s2b ";".
Proof.
  intros k I E. apply is_eq in E. unfold ty in E. pose proof (C01_tokens inp in_diff usetabs align) as T. rewrite Forall_forall in T. destruct (T k I) as (_ & (_ & _ & fl & _ & MS) & _). rewrite E in MS.
  assert (Q : forallb (fun k => negb (ttype_eqb (kw_type k) T_SEMI) || beq (kw_str k) (s2b ";")) clang_tokens = true) by (vm_compute; reflexivity). rewrite forallb_forall in Q. unfold src.
  inversion MS as [kw o c N1 N2 LO _ K1|kw o e W IN KS K1| | | | | | | | ]; subst.
  - destruct LO as (IN & OC & _). specialize (Q kw IN). rewrite K1 in Q. cbn [negb orb] in Q. change (ttype_eqb T_SEMI T_SEMI) with true in Q. cbn [negb orb] in Q. apply beq_eq in Q. rewrite <- Q. destruct OC as (r & OC). unfold slice. rewrite OC. replace (_ + _ - _) with (length (kw_str kw)) by lia. rewrite firstn_app, Nat.sub_diag, firstn_all, app_nil_r. reflexivity.
  - specialize (Q kw IN). rewrite K1 in Q. change (ttype_eqb T_SEMI T_SEMI) with true in Q. cbn [negb orb] in Q. apply beq_eq in Q. rewrite <- Q. symmetry. exact KS.
Qed.
End File.

Lemma less_sub : forall q a b, less q a b -> ExprProps.sub b a.
Proof. induction 1; constructor; assumption. Qed.
Lemma less_next : forall q a b, less q a b -> next_is T_SEMI b = true -> next_is T_SEMI a = true.
Proof. induction 1 as [|q k a b H IH|q k a b K _ H IH]; intros N; [exact N|exact N|exact K]. Qed.
