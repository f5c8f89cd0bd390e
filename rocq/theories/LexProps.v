(** C01 - C09: tokenization. *)
From Verif Require Import Base StrModel StrProofs UtilModel UtilProofs TokenModel LexModel LexSpec LexRefine LexBlank LexMain LexTrivia LexAll CommentModel CommentProofs.
From Coq Require Import Permutation.

(** The tokens in reading order, before the discarded ones are removed, and the final
    state of the reader.  [in_diff] is the set of lines selected by a diff, [align]
    cpp_align; both are arbitrary. *)
Notation reading inp in_diff usetabs align :=
  (read_all inp in_diff (ctrim usetabs) align (FUEL inp) lexer_init).
Notation tokens inp in_diff usetabs align := (fst (reading inp in_diff usetabs align)).
Notation tokenized inp in_diff usetabs align := (tokenize inp in_diff (ctrim usetabs) align).

(** ** C01 *)
(** The spans are in order, disjoint and leave only blanks uncovered. *)
Theorem C01_tiling : forall inp in_diff usetabs align,
  tiles inp 0 (all_toks (tokens inp in_diff usetabs align)) (length inp).
Proof. intros. apply read_all_spec. Qed.

(** Every byte that is not blank belongs to exactly one token. *)
Theorem C01_cover : forall inp in_diff usetabs align i c,
  nth_error inp i = Some c -> c <> SP -> c <> TAB -> c <> FF -> c <> CR -> c <> NL ->
  exists l1 t l2, all_toks (tokens inp in_diff usetabs align) = l1 ++ t :: l2 /\
    t_off t <= i < t_end t /\ forall u, In u (l1 ++ l2) -> ~ (t_off u <= i < t_end u).
Proof.
  intros inp in_diff usetabs align i c Hc H1 H2 H3 H4 H5.
  eapply (tiles_cover inp); [apply C01_tiling| |exact Hc|unfold bl; intuition congruence].
  split; [lia|]. apply nth_error_Some. congruence.
Qed.

(** Tokens come in input order. *)
Theorem C01_order : forall inp in_diff usetabs align l1 t l2 u,
  all_toks (tokens inp in_diff usetabs align) = l1 ++ t :: l2 -> In u l2 -> t_end t <= t_off u.
Proof.
  intros. pose proof (C01_tiling inp in_diff usetabs align) as Ht.
  eapply (tiles_order inp) in Ht; eauto. lia.
Qed.

(** Each token is what its span says and its text is the span, except comments (see
    C07, C09, C23), #define (C24) and runs of newlines. *)
Theorem C01_tokens : forall inp in_diff usetabs align,
  Forall (token_ok inp in_diff (ctrim usetabs) align) (tokens inp in_diff usetabs align).
Proof. intros. apply read_all_spec. Qed.

(** Discarding removes the text of the discarded tokens (lone backslashes) and nothing
    else. *)
Theorem C01_discard : forall inp in_diff usetabs align,
  let ks := tokens inp in_diff usetabs align in
  exists l, fst (tokenized inp in_diff usetabs align) = Some l /\
    map k_tok l = map k_tok (filter (fun k => negb (is_discard k)) ks) /\
    flat_map k_pre l = flat_map k_pre ks /\ Permutation (flat_map k_suf l) (flat_map k_suf ks).
Proof.
  intros. destruct (tokenize_spec inp in_diff usetabs align) as (l & H1 & _ & H2).
  exists l. split; auto.
Qed.

(** Only backslashes are discarded. *)
Theorem C01_discard_backslash : forall inp in_diff usetabs align k,
  In k (tokens inp in_diff usetabs align) -> is_discard k = true -> src inp (k_tok k) = s2b "\".
Proof.
  intros inp in_diff usetabs align k Hin Hd.
  pose proof (C01_tokens inp in_diff usetabs align) as Hok. rewrite Forall_forall in Hok.
  destruct (Hok k Hin) as (_ & (_ & _ & fl & Hfl & Hms) & _).
  unfold is_discard, flags_ok in *.
  assert (Hfd : has_flag fl F_DISCARD = true).
  { rewrite Hfl in Hd. destruct (in_diff _); auto. unfold has_flag in *.
    rewrite N.land_lor_distr_l in Hd. change (N.land F_DIFF F_DISCARD) with 0%N in Hd. rewrite N.lor_0_r in Hd. auto. }
  assert (Htab : forall k, In k clang_tokens -> has_flag (kw_flags k) F_DISCARD = true -> kw_str k = s2b "\").
  { assert (H : forallb (fun k => negb (has_flag (kw_flags k) F_DISCARD) || beq (kw_str k) (s2b "\")) clang_tokens = true)
      by (vm_compute; reflexivity).
    rewrite forallb_forall in H. intros k0 Hk Hf. specialize (H k0 Hk). rewrite Hf in H. simpl in H. apply beq_eq. auto. }
  unfold src. inversion Hms; subst; try discriminate.
  - match goal with Hl : longest _ _ _ |- _ => destruct Hl as (Hk & Ho & _) end.
    rewrite (Htab _ Hk Hfd) in *. apply occurs_slice in Ho. apply Ho.
  - rewrite <- (Htab k0); auto.
Qed.

Definition ex_inp : bytes :=
  s2b "#if 0" ++ [NL] ++ s2b "int  x = a->b; // c" ++ [NL] ++ s2b "#endif" ++ [NL] ++ s2b "char *s = L""q\""r"" \ '\'';" ++ [NL].
Example C01_ex : map (fun t => (t_type t, t_off t, t_end t)) (all_toks (tokens ex_inp (fun _ => false) true (fun _ => None)))
  = [(T_CPP_IF, 0, 6); (T_INT, 6, 9); (T_SPACE, 9, 11); (T_IDENT, 11, 12); (T_SPACE, 12, 13); (T_EQUAL, 13, 14);
     (T_SPACE, 14, 15); (T_IDENT, 15, 16); (T_ARROW, 16, 18); (T_IDENT, 18, 19); (T_SEMI, 19, 20);
     (T_COMMENT, 20, 25); (T_SPACE, 25, 26); (T_CPP_ENDIF, 26, 33); (T_CHAR, 33, 37); (T_SPACE, 37, 38);
     (T_STAR, 38, 39); (T_IDENT, 39, 40); (T_SPACE, 40, 41); (T_EQUAL, 41, 42); (T_SPACE, 42, 43);
     (T_STRING, 43, 50); (T_SPACE, 50, 51); (T_BACKSLASH, 51, 52); (T_SPACE, 52, 53); (T_LITERAL, 53, 57);
     (T_SEMI, 57, 58); (T_SPACE, 58, 59); (T_EOF, 59, 59)].
Proof. vm_compute. reflexivity. Qed.

(** ** C02 *)
(** [l_bad] records reads outside the buffer, failed assertions and loops that did not
    end within the length of the input. *)
Theorem C02_safe : forall inp in_diff usetabs align,
  l_bad (snd (reading inp in_diff usetabs align)) = false /\
  exists l, fst (tokenized inp in_diff usetabs align) = Some l /\
    l_bad (snd (tokenized inp in_diff usetabs align)) = false.
Proof.
  intros. split; [apply read_all_spec|].
  destruct (tokenize_spec inp in_diff usetabs align) as (l & H1 & H2 & _). eauto.
Qed.

Theorem C02_eof : forall inp in_diff usetabs align,
  exists ks k, tokens inp in_diff usetabs align = ks ++ [k] /\ t_type (k_tok k) = T_EOF /\
    t_end (k_tok k) = length inp /\ k_suf k = [] /\
    Forall (fun k => t_type (k_tok k) <> T_EOF /\ t_off (k_tok k) < t_end (k_tok k)) ks.
Proof.
  intros. destruct (read_all_spec inp in_diff usetabs align) as (_ & _ & Hok & ks & k & E & H1 & H2 & H3 & H4).
  exists ks, k. split; [exact E|]. split; [exact H1|]. split; [exact H3|]. split; [exact H2|].
  rewrite E in Hok. apply Forall_app in Hok. destruct Hok as (Hok & _).
  rewrite Forall_forall in *. intros x Hx. split; [exact (H4 x Hx)|].
  destruct (Hok x Hx) as (_ & (_ & _ & fl & _ & Hms) & _). apply main_span_lt in Hms; [lia|]. exact (H4 x Hx).
Qed.

(** The same after discarding. *)
Theorem C02_eof_tokenized : forall inp in_diff usetabs align l,
  fst (tokenized inp in_diff usetabs align) = Some l ->
  exists ks k, map k_tok l = ks ++ [k] /\ t_type k = T_EOF /\ Forall (fun t => t_type t <> T_EOF) ks.
Proof.
  intros inp in_diff usetabs align l Hl.
  destruct (tokenize_spec inp in_diff usetabs align) as (l' & H1 & _ & H2 & _). rewrite Hl in H1. inv H1.
  destruct (read_all_spec inp in_diff usetabs align) as (_ & _ & Hok & ks & k & E & He & _ & _ & Hn).
  assert (Hd : is_discard k = false).
  { eapply discard_not_eof; eauto. rewrite Forall_forall in Hok. apply Hok. rewrite E. apply in_or_app; right; left; auto. }
  exists (kept ks), (k_tok k). cbv zeta in E, H2. rewrite E in H2. unfold kept in *.
  rewrite filter_app, map_app in H2. cbn [filter] in H2. rewrite Hd in H2. split; [exact H2|]. split; [exact He|].
  rewrite Forall_forall in *. intros t Ht. apply in_map_iff in Ht. destruct Ht as (x & <- & Hx).
  apply filter_In in Hx. destruct Hx as (Hx & _). exact (Hn x Hx).
Qed.

Example C02_ex : map (fun t => t_type t) (map k_tok (match fst (tokenized ex_inp (fun _ => false) true (fun _ => None)) with Some l => l | None => [] end))
  = [T_INT; T_IDENT; T_EQUAL; T_IDENT; T_ARROW; T_IDENT; T_SEMI; T_CHAR; T_STAR; T_IDENT; T_EQUAL; T_STRING; T_LITERAL; T_SEMI; T_EOF].
Proof. vm_compute. reflexivity. Qed.

(** ** C03 *)
(** Parity of the backslashes at the end of a text. *)
Fixpoint lead_bsl (l : bytes) : nat := match l with c :: r => if c =c BSL then S (lead_bsl r) else 0 | [] => 0 end.
Definition escaped_after (l : bytes) : bool := Nat.odd (lead_bsl (rev l)).
(** No delimiter [d] in [b] is unescaped. *)
Definition only_escaped (d : byte) (b : bytes) : Prop :=
  forall p q, b = p ++ d :: q -> escaped_after p = true.

Definition par (l : bytes) : bool := fold_left (fun b c => if c =c BSL then negb b else false) l false.
Lemma par_odd : forall l, escaped_after l = par l.
Proof.
  intros l. unfold escaped_after, par. induction l as [|c l IH] using rev_ind; auto.
  rewrite rev_app_distr, fold_left_app. cbn [rev app lead_bsl fold_left].
  destruct (c =c BSL); [|reflexivity]. rewrite Nat.odd_succ, <- Nat.negb_odd, IH. reflexivity.
Qed.
Lemma lit_body_escapes : forall d b, d <> BSL -> lit_body d b -> escaped_after b = false /\ only_escaped d b.
Proof.
  intros d b Hd H. rewrite par_odd. unfold par, only_escaped.
  assert (HH : fold_left (fun b c => if c =c BSL then negb b else false) b false = false /\
    forall p q, b = p ++ d :: q -> fold_left (fun b c => if c =c BSL then negb b else false) p false = true).
  { induction H as [|c l Hc Hb H IH|c l H IH].
    - split; auto. intros [|x p] q E; discriminate.
    - destruct IH as (IH1 & IH2). apply eqb_false in Hb as Hb'. split; [cbn [fold_left]; rewrite Hb'; auto|].
      intros [|x p] q E; inversion E; subst; [congruence|]. cbn [fold_left]. rewrite Hb'. eapply IH2; eauto.
    - destruct IH as (IH1 & IH2). split; [cbn [fold_left]; rewrite eqb_refl; destruct (c =c BSL); auto|].
      intros [|x [|y p]] q E; inversion E; subst; [congruence|reflexivity|].
      cbn [fold_left]. rewrite eqb_refl. cbn [negb]. destruct (y =c BSL); eapply IH2; eauto. }
  destruct HH as (H1 & H2). split; auto. intros p q E. rewrite par_odd. eapply H2; eauto.
Qed.
Lemma lit_open_escapes : forall d b, d <> BSL -> lit_open d b -> only_escaped d b.
Proof.
  intros d b Hd [H|(l & -> & H)].
  - apply lit_body_escapes; auto.
  - apply lit_body_escapes in H; auto. destruct H as (_ & H). intros p q E.
    destruct q as [|x q] using rev_ind.
    + apply app_inj_tail in E. destruct E. congruence.
    + rewrite app_comm_cons, app_assoc in E. apply app_inj_tail in E. destruct E as (E & _). eauto.
Qed.

(** The text of EOF: nothing, a literal with no unescaped delimiter up to the end of
    the input, or a single last byte that starts no token. *)
Theorem C03_eof_text : forall inp in_diff usetabs align k,
  In k (tokens inp in_diff usetabs align) -> t_type (k_tok k) = T_EOF ->
  let s := src inp (k_tok k) in
  s = [] \/
  (exists w q body, s = w ++ q :: body /\ (w = [] \/ w = s2b "L") /\ (q = DQ \/ q = SQ) /\ only_escaped q body) \/
  (exists c, s = [c] /\ ident_byte c = false /\ c <> DQ /\ c <> SQ /\ c <> "."%char /\
     forall kw, In kw clang_tokens -> hd_error (kw_str kw) <> Some c \/ 1 < length (kw_str kw)).
Proof.
  intros inp in_diff usetabs align k Hin He s.
  pose proof (C01_tokens inp in_diff usetabs align) as Hok. rewrite Forall_forall in Hok.
  destruct (Hok k Hin) as (_ & (_ & _ & fl & Hfl & Hms) & _). rewrite He in Hms. unfold s, src.
  inversion Hms; subst.
  - match goal with Hl : longest _ _ _ |- _ => destruct Hl as (Hk & _) end. destruct (entry_neof k0 Hk); auto.
  - exfalso. eapply entry_neof; eauto.
  - left. rewrite slice_nil. auto.
  - right; left. exists w, q, body. repeat (split; [auto; fail|]).
    apply lit_open_escapes; auto. match goal with Hq : quote _ |- _ => destruct Hq; subst; discriminate end.
  - right; right. match goal with Hu : unknown _ _ |- _ => destruct Hu as (c & Hc & U2 & U3 & U4 & U5 & U6) end. exists c.
    rewrite (slice_cons inp (t_off (k_tok k)) _ c) by (auto; lia).
    rewrite slice_over by lia. split; auto. split; auto. split; auto. split; auto. split; auto.
    intros kw Hkw. destruct (Nat.le_gt_cases (length (kw_str kw)) 1); [|auto]. left. intros Hh.
    apply (U6 kw Hkw). pose proof (entry_len kw Hkw).
    destruct (kw_str kw) as [|x [|y r]]; simpl in *; try lia. inv Hh.
    exists (skipn (S (t_off (k_tok k))) inp). apply skipn_cons; auto.
Qed.

Example C03_ex : map (fun k => (t_type (k_tok k), src (s2b "a ""b") (k_tok k)))
   (tokens (s2b "a ""b") (fun _ => false) true (fun _ => None)) = [(T_IDENT, s2b "a"); (T_EOF, s2b """b")].
Proof. vm_compute. reflexivity. Qed.
(** A final byte that starts no token is swallowed too, an earlier one is not. *)
Example C03_ex_unknown : map (fun k => (t_type (k_tok k), src (s2b "@ @") (k_tok k)))
   (tokens (s2b "@ @") (fun _ => false) true (fun _ => None)) = [(T_NONE, s2b "@"); (T_EOF, s2b "@")].
Proof. vm_compute. reflexivity. Qed.

(** ** C04 *)
Theorem C04_positions : forall inp in_diff usetabs align t,
  In t (all_toks (tokens inp in_diff usetabs align)) ->
  t_lno t = S (count_occ_b NL (firstn (t_off t) inp)) /\
  t_cno t = S (display_col (firstn (t_off t) inp) 0).
Proof.
  intros inp in_diff usetabs align t Hin. unfold all_toks in Hin. apply in_flat_map in Hin.
  destruct Hin as (k & Hk & Ht). pose proof (C01_tokens inp in_diff usetabs align) as Hok.
  rewrite Forall_forall in Hok. apply (token_toks_ok inp in_diff usetabs align k t (Hok k Hk)) in Ht.
  destruct Ht as (_ & H1 & H2). auto.
Qed.

(** The flag of the diff selection follows the line. *)
Theorem C04_diff : forall inp in_diff usetabs align k,
  In k (tokens inp in_diff usetabs align) ->
  exists fl, t_flags (k_tok k) = (if in_diff (t_lno (k_tok k)) then N.lor fl F_DIFF else fl) /\
    (fl = 0%N \/ exists kw, In kw clang_tokens /\ t_type (k_tok k) = kw_type kw /\ fl = kw_flags kw).
Proof.
  intros inp in_diff usetabs align k Hk. pose proof (C01_tokens inp in_diff usetabs align) as Hok.
  rewrite Forall_forall in Hok. destruct (Hok k Hk) as (_ & (_ & _ & fl & Hfl & Hms) & _).
  exists fl. split; [exact Hfl|].
  inversion Hms; subst; auto; right; eexists; (split; [|split; [|reflexivity]]); eauto.
  match goal with Hl : longest _ _ _ |- _ => destruct Hl; auto end.
Qed.

Example C04_ex : map (fun t => (t_type t, t_lno t, t_cno t))
   (all_toks (tokens (s2b "a" ++ [TAB] ++ s2b "b /*" ++ [NL] ++ s2b "*/" ++ [TAB] ++ s2b "c") (fun _ => false) true (fun _ => None)))
  = [(T_IDENT, 1, 1); (T_SPACE, 1, 2); (T_IDENT, 1, 9); (T_COMMENT, 1, 10); (T_IDENT, 2, 9); (T_EOF, 2, 10)].
Proof. vm_compute. reflexivity. Qed.

(** ** C05 *)
(** If some operator of the table starts at a token and the token is not a number
    starting with a period, then it is the longest such operator. *)
Theorem C05_longest : forall inp in_diff usetabs align k kw c,
  In k (tokens inp in_diff usetabs align) ->
  let o := t_off (k_tok k) in
  In kw clang_tokens -> occurs inp (kw_str kw) o -> nth_error inp o = Some c -> ident_byte c = false ->
  ~ (c = "."%char /\ exists d, nth_error inp (S o) = Some d /\ isdigit d = true) ->
  exists best, In best clang_tokens /\ occurs inp (kw_str best) o /\
    (forall kw', In kw' clang_tokens -> occurs inp (kw_str kw') o -> length (kw_str kw') <= length (kw_str best)) /\
    t_type (k_tok k) = kw_type best /\ t_end (k_tok k) = o + length (kw_str best) /\
    text_bytes inp (t_str (k_tok k)) = kw_str best.
Proof.
  intros inp in_diff usetabs align k kw c Hk o Hkw Hocc Hc Hi Hdot.
  pose proof (C01_tokens inp in_diff usetabs align) as Hok.
  rewrite Forall_forall in Hok. destruct (Hok k Hk) as (_ & (_ & Hv & fl & Hfl & Hms) & _).
  unfold verbatim, src in Hv. change (t_off (k_tok k)) with o in Hv, Hms. clearbody o.
  assert (Hword : forall e, word inp o e -> False).
  { intros e (_ & (x & Hx & Hf) & _). rewrite Hc in Hx. inv Hx. unfold ident_first, ident_byte in *.
    rewrite !orb_false_iff in Hi. rewrite orb_true_iff in Hf. intuition congruence. }
  assert (Hfirst : hd_error (kw_str kw) = Some c).
  { destruct (hd_ident_occ inp kw o c Hkw Hocc Hc) as (_ & r & Hr). rewrite Hr. reflexivity. }
  assert (Hnq : ~ (c = DQ \/ c = SQ)).
  { destruct (kw_str kw) as [|x r] eqn:Es; [discriminate|]. simpl in Hfirst. inv Hfirst.
    pose proof (entry_fst kw c r Hkw Es) as Hq. intuition congruence. }
  assert (Hlit : forall w q body e, o < e -> wide w -> quote q -> slice inp o e = w ++ [q] ++ body -> False).
  { intros w q body e Hlt [ -> | -> ] Hq Hs; cbn [app] in Hs.
    - assert (Hh : hd_error (slice inp o e) = Some q) by (rewrite Hs; reflexivity).
      rewrite (slice_cons inp o _ c) in Hh by (auto; lia). inv Hh. auto.
    - assert (Hh : hd_error (slice inp o e) = Some "L"%char) by (rewrite Hs; reflexivity).
      rewrite (slice_cons inp o _ c) in Hh by (auto; lia). inv Hh. discriminate. }
  inversion Hms; subst.
  - match goal with Hx : longest _ _ _ |- _ => destruct Hx as (Hb & Ho & Hl) end.
    match goal with He : _ = t_end (k_tok k) |- _ => rename He into He' end.
    exists k0. repeat (split; [auto; fail|]).
    rewrite Hv, <- He'. apply occurs_slice in Ho. apply Ho.
  - exfalso; eauto.
  - exfalso; eauto.
  - exfalso. eapply (Hlit w DQ (body ++ [DQ]) (t_end (k_tok k))); eauto; [lia|left; auto].
  - exfalso. eapply (Hlit w SQ (body ++ [SQ]) (t_end (k_tok k))); eauto; [lia|right; auto].
  - exfalso. match goal with Hx : number _ _ _ |- _ => destruct Hx as (_ & (x & Hnx & Hd) & _) end.
    rewrite Hc in Hnx. inv Hnx.
    destruct Hd as [Hd|Hd]; [|auto]. unfold ident_byte in Hi. rewrite Hd in Hi. rewrite !orb_false_iff in Hi. intuition congruence.
  - exfalso. match goal with Hx : unknown _ _ |- _ => destruct Hx as (x & _ & _ & _ & _ & _ & Hn) end. apply (Hn kw Hkw). auto.
  - exfalso. assert (length inp < length inp) by (apply nth_error_Some; congruence). lia.
  - exfalso. eapply Hlit; eauto.
  - exfalso. match goal with Hx : unknown _ _ |- _ => destruct Hx as (x & _ & _ & _ & _ & _ & Hn) end. apply (Hn kw Hkw). auto.
Qed.

Example C05_ex : map (fun k => t_type (k_tok k)) (tokens (s2b "a>>=b...c..d .5 x->y") (fun _ => false) true (fun _ => None))
  = [T_IDENT; T_GREATERGREATEREQUAL; T_IDENT; T_ELLIPSIS; T_IDENT; T_PERIOD; T_PERIOD; T_IDENT; T_LITERAL; T_IDENT; T_ARROW; T_IDENT; T_EOF].
Proof. vm_compute. reflexivity. Qed.

(** ** C06 *)
(** A string or character literal: from the opening quote to the first unescaped one. *)
Definition literal_at (q : byte) (s : bytes) : Prop :=
  exists w body, s = w ++ q :: body ++ [q] /\ (w = [] \/ w = s2b "L") /\
    escaped_after body = false /\ only_escaped q body.

Theorem C06_string : forall inp in_diff usetabs align k,
  In k (tokens inp in_diff usetabs align) -> t_type (k_tok k) = T_STRING ->
  literal_at DQ (src inp (k_tok k)) /\ text_bytes inp (t_str (k_tok k)) = src inp (k_tok k).
Proof.
  intros inp in_diff usetabs align k Hk Hty.
  pose proof (C01_tokens inp in_diff usetabs align) as Hok.
  rewrite Forall_forall in Hok. destruct (Hok k Hk) as (_ & (_ & Hv & fl & Hfl & Hms) & _). split; auto.
  assert (Htab : forall kw, In kw clang_tokens -> kw_type kw <> T_STRING).
  { assert (H : forallb (fun k => negb (ttype_eqb (kw_type k) T_STRING)) clang_tokens = true) by (vm_compute; reflexivity).
    rewrite forallb_forall in H. intros kw Hkw Hx. specialize (H kw Hkw). rewrite Hx in H. discriminate. }
  rewrite Hty in Hms. unfold src.
  inversion Hms; subst.
  - match goal with Hl : longest _ _ _ |- _ => destruct Hl as (Hb & _) end. destruct (Htab k0 Hb); auto.
  - exfalso. eapply Htab; eauto.
  - exists w, body. split; auto. split; auto. apply lit_body_escapes; auto. discriminate.
Qed.

(** Whatever starts with a quote is a literal, or the end of a file in the middle of
    one. *)
Theorem C06_quote : forall inp in_diff usetabs align k q w r,
  In k (tokens inp in_diff usetabs align) -> (q = DQ \/ q = SQ) -> (w = [] \/ w = s2b "L") ->
  skipn (t_off (k_tok k)) inp = w ++ q :: r ->
  t_type (k_tok k) = (if q =c DQ then T_STRING else T_LITERAL) /\ literal_at q (src inp (k_tok k)) /\
    text_bytes inp (t_str (k_tok k)) = src inp (k_tok k) \/
  t_type (k_tok k) = T_EOF /\ only_escaped q r.
Proof.
  intros inp in_diff usetabs align k q w r Hk Hq Hw Hsk.
  pose proof (C01_tokens inp in_diff usetabs align) as Hok.
  rewrite Forall_forall in Hok. destruct (Hok k Hk) as (_ & (Hpos & Hv & fl & Hfl & Hms) & _).
  unfold verbatim in Hv. unfold src in *. destruct Hpos as (Hle & _).
  set (o := t_off (k_tok k)) in *. set (e := t_end (k_tok k)) in *. clearbody o e.
  assert (HoL : o < length inp).
  { assert (Hl : length (skipn o inp) = length (w ++ q :: r)) by congruence. rewrite skipn_length, app_length in Hl. simpl in Hl. lia. }
  assert (Hqd : q <> BSL) by (destruct Hq; subst; discriminate).
  assert (Hqi : ident_byte q = false) by (destruct Hq; subst; reflexivity).
  (* bytes at the start *)
  assert (H0 : exists c, nth_error inp o = Some c /\ hd_error (w ++ q :: r) = Some c).
  { rewrite <- Hsk. destruct (skipn o inp) as [|c x] eqn:E; [destruct w; discriminate|].
    exists c. split; auto. rewrite <- (Nat.add_0_r o), <- nth_error_skipn_add, E. reflexivity. }
  destruct H0 as (c & Hc & Hh).
  assert (Hword : word inp o e -> w = s2b "L" /\ e = S o /\ nth_error inp e = Some q /\ slice inp o e = s2b "L").
  { intros (We & (x & Hx & Hf) & Hall & Hend). rewrite Hc in Hx. inv Hx.
    destruct Hw as [ -> | -> ]; cbn [app hd_error] in Hh; inv Hh.
    - unfold ident_first, ident_byte in *. rewrite !orb_false_iff in Hqi. rewrite orb_true_iff in Hf. intuition congruence.
    - split; auto.
      assert (Hq1 : nth_error inp (S o) = Some q).
      { rewrite <- Nat.add_1_r, <- nth_error_skipn_add, Hsk. reflexivity. }
      destruct (Nat.eq_dec e (S o)) as [->|].
      + split; auto. split; auto. rewrite (slice_cons inp o _ "L"%char), slice_nil by (auto; lia). reflexivity.
      + exfalso. assert (ident_byte q = true) by (eapply (Forall_slice_nth inp (fun c => ident_byte c = true)); eauto; lia). congruence. }
  assert (Hlit : forall w' q' body, wide w' -> quote q' -> slice inp o e = w' ++ [q'] ++ body ->
     w' = w /\ q' = q /\ exists z, r = body ++ z).
  { intros w' q' body Hw' Hq' Hs.
    assert (Hx : skipn o inp = slice inp o e ++ skipn e inp).
    { unfold slice. rewrite <- (firstn_skipn (e - o) (skipn o inp)) at 1. f_equal. rewrite skipn_skipn'. f_equal. lia. }
    rewrite Hs, Hsk in Hx.
    destruct Hw as [ -> | -> ]; destruct Hw' as [ -> | -> ]; cbn [app s2b] in Hx; inversion Hx; subst; eauto.
    - destruct Hq; discriminate.
    - destruct Hq'; discriminate. }
  assert (Hcq : c = q \/ c = "L"%char).
  { destruct Hw as [ -> | -> ]; cbn [app hd_error] in Hh; inv Hh; auto. }
  assert (Hnum : isdigit c = false /\ c <> "."%char).
  { destruct Hcq as [ -> | -> ]; [destruct Hq; subst|]; (split; [reflexivity|discriminate]). }
  assert (Hunk : ~ unknown inp o).
  { intros (x & Hx & U1 & U2 & U3 & _). rewrite Hc in Hx. inv Hx. destruct Hcq as [->| ->]; [destruct Hq; congruence|discriminate]. }
  inversion Hms; subst.
  - exfalso. match goal with Hl : longest _ _ _ |- _ => destruct Hl as (Hb & Ho & _) end.
    destruct (hd_ident_occ inp k0 o c Hb Ho Hc) as (_ & x & Hr).
    pose proof (entry_fst k0 c x Hb Hr) as Hf.
    destruct Hcq as [->| ->]; [destruct Hq; intuition congruence|].
    match goal with Hx : nth_error inp o = Some ?y, Hy : ident_byte ?y = false |- _ => rewrite Hc in Hx; inv Hx; discriminate end.
  - exfalso. destruct Hword as (_ & Hw2 & Hw3 & Hw4); auto.
    match goal with Hx : kw_str k0 = _, Hy : In k0 _ |- _ => rewrite Hw4 in Hx; pose proof (entry_one k0 Hy) as Ho; rewrite Hx in Ho; specialize (Ho eq_refl); discriminate end.
  - exfalso. destruct Hword as (_ & Hw2 & Hw3 & Hw4); auto.
    match goal with Hx : slice inp o e = s2b "L" -> _ |- _ => apply (Hx Hw4 q Hw3) end. exact Hq.
  - match goal with Hx : slice inp o e = _ |- _ => rename Hx into Hs end.
    destruct (Hlit w0 DQ (body ++ [DQ])) as (-> & <- & _); auto; [left; auto|].
    left. split; auto. split; auto. exists w, body. split; [exact Hs|]. split; auto. apply lit_body_escapes; auto.
  - match goal with Hx : slice inp o e = _ |- _ => rename Hx into Hs end.
    destruct (Hlit w0 SQ (body ++ [SQ])) as (-> & <- & _); auto; [right; auto|].
    left. split; auto. split; auto. exists w, body. split; [exact Hs|]. split; auto. apply lit_body_escapes; auto.
  - exfalso. match goal with Hx : number _ _ _ |- _ => destruct Hx as (_ & (x & Hnx & Hd) & _) end.
    rewrite Hc in Hnx. inv Hnx. intuition congruence.
  - contradiction.
  - lia.
  - match goal with Hx : slice inp o _ = _ |- _ => rename Hx into Hs end.
    destruct (Hlit w0 q0 body) as (-> & -> & z & Hz); auto.
    right. split; auto. assert (Hr : r = body).
    { assert (Hx : slice inp o (length inp) = skipn o inp) by (unfold slice; apply firstn_all2; rewrite skipn_length; lia).
      rewrite Hx, Hsk in Hs. apply app_inv_head in Hs. inversion Hs; auto. }
    rewrite Hr. apply lit_open_escapes; auto.
  - contradiction.
Qed.

Example C06_ex : map (fun k => src ex_inp (k_tok k)) (filter (fun k => ttype_eqb (t_type (k_tok k)) T_STRING || ttype_eqb (t_type (k_tok k)) T_LITERAL)
   (tokens ex_inp (fun _ => false) true (fun _ => None))) = [s2b "L""q\""r"""; s2b "'\''"].
Proof. vm_compute. reflexivity. Qed.

(** ** C07 *)
Lemma all_toks_in : forall inp in_diff usetabs align t,
  In t (all_toks (tokens inp in_diff usetabs align)) ->
  exists k, In k (tokens inp in_diff usetabs align) /\ token_ok inp in_diff (ctrim usetabs) align k /\
    In t (token_toks k).
Proof.
  intros inp in_diff usetabs align t Hin. unfold all_toks in Hin. apply in_flat_map in Hin.
  destruct Hin as (k & Hk & Ht). exists k. split; auto. split; auto.
  pose proof (C01_tokens inp in_diff usetabs align) as Hok. rewrite Forall_forall in Hok. auto.
Qed.

Lemma all_comments : forall inp in_diff usetabs align t,
  In t (all_toks (tokens inp in_diff usetabs align)) -> t_type t = T_COMMENT ->
  comment_ok inp (ctrim usetabs) t.
Proof.
  intros inp in_diff usetabs align t Hin Hty.
  destruct (all_toks_in _ _ _ _ _ Hin) as (k & _ & (H1 & H2 & _ & H3) & Ht).
  rewrite Forall_forall in H1, H3. unfold token_toks in Ht. apply in_app_or in Ht. destruct Ht as [Ht|[<-|Ht]].
  - destruct (H1 t Ht) as [H|(_ & _ & _ & H & _)]; auto. rewrite Hty in H.
    destruct H as (m & n & _ & _ & _ & (x & y & _ & _ & _ & _ & _ & Hc & _) & _). exfalso.
    destruct Hc as [(z & Hz & _)|(Hz & _)]; [|discriminate].
    assert (Hn : forallb (fun p => negb (ttype_eqb (fst p) T_COMMENT)) cpp_names = true) by (vm_compute; reflexivity).
    rewrite forallb_forall in Hn. specialize (Hn _ Hz). discriminate.
  - exfalso. destruct H2 as (_ & _ & fl & _ & Hms). rewrite Hty in Hms.
    assert (Htab : forall kw, In kw clang_tokens -> kw_type kw <> T_COMMENT).
    { assert (H : forallb (fun k => negb (ttype_eqb (kw_type k) T_COMMENT)) clang_tokens = true) by (vm_compute; reflexivity).
      rewrite forallb_forall in H. intros kw Hkw Hx. specialize (H kw Hkw). rewrite Hx in H. discriminate. }
    inversion Hms; subst.
    + match goal with Hl : longest _ _ _ |- _ => destruct Hl as (Hb & _) end. destruct (Htab k0 Hb); auto.
    + eapply Htab; eauto.
  - destruct (H3 t Ht) as [H|(H & _)]; auto. congruence.
Qed.

(** Each comment token is a comment with the blanks around it, or several of them on
    one line; where a comment ends is said by [block_span] and [c99_span]. *)
Theorem C07_comments : forall inp in_diff usetabs align t,
  In t (all_toks (tokens inp in_diff usetabs align)) -> t_type t = T_COMMENT ->
  comment_run inp (t_off t) (t_end t).
Proof.
  intros inp in_diff usetabs align t Hin Hty.
  destruct (all_comments _ _ _ _ _ Hin Hty) as (_ & _ & _ & [(H & _)|(n & H1 & H2 & H3 & H4 & _)]).
  - apply cr_one; auto.
  - eapply cr_more; eauto.
Qed.

(** No comment is read as something else. *)
Theorem C07_none_missed : forall inp in_diff usetabs align k,
  In k (tokens inp in_diff usetabs align) ->
  ~ occurs inp (s2b "//") (t_off (k_tok k)) /\ ~ occurs inp (s2b "/*") (t_off (k_tok k)).
Proof.
  intros inp in_diff usetabs align k Hk. pose proof (C01_tokens inp in_diff usetabs align) as Hok.
  rewrite Forall_forall in Hok. destruct (Hok k Hk) as (_ & _ & (H1 & H2 & _) & _). auto.
Qed.

Example C07_ex : let i := s2b "a /*/ b */ c // d" ++ [NL] ++ s2b "  // e" ++ [NL] ++ s2b "f /* g" in
  map (fun t => src i t) (filter (fun t => ttype_eqb (t_type t) T_COMMENT) (all_toks (tokens i (fun _ => false) true (fun _ => None))))
  = [s2b " /*/ b */"; s2b " // d" ++ [NL] ++ s2b "  // e"; s2b " /* g"].
Proof. vm_compute. reflexivity. Qed.

(** ** C08 *)
(** A directive token is spaces, '#', spaces, a name, and everything up to the first
    newline that is not preceded by a backslash and not inside a comment in the sense
    of [dir_step]; then newlines. *)
Theorem C08_directives_partial : forall inp in_diff usetabs align t,
  In t (all_toks (tokens inp in_diff usetabs align)) ->
  (exists ty s, In (ty, s) cpp_names /\ t_type t = ty) \/ t_type t = T_CPP ->
  cpp_text inp (t_type t) (t_off t) (t_end t).
Proof.
  intros inp in_diff usetabs align t Hin Hty.
  assert (Hcpp : In (t_type t) (T_CPP :: map fst cpp_names)).
  { destruct Hty as [(ty & s & H & ->)|H]; [right; apply (in_map fst) in H; auto|left; auto]. }
  destruct (all_toks_in _ _ _ _ _ Hin) as (k & _ & (H1 & H2 & _ & H3) & Ht).
  rewrite Forall_forall in H1, H3. unfold token_toks in Ht. apply in_app_or in Ht.
  assert (Hnc : t_type t <> T_COMMENT /\ t_type t <> T_SPACE /\ t_type t <> T_EOF /\ t_type t <> T_NONE /\
    t_type t <> T_IDENT /\ t_type t <> T_STRING /\ t_type t <> T_LITERAL).
  { repeat split; intros Hx; rewrite Hx in Hcpp; vm_compute in Hcpp; intuition discriminate. }
  destruct Ht as [Ht|[<-|Ht]].
  - destruct (H1 t Ht) as [(H & _)|(_ & _ & _ & H & _)]; auto. intuition congruence.
  - exfalso. destruct H2 as (_ & _ & fl & _ & Hms).
    assert (Htab : forall kw, In kw clang_tokens -> ~ In (kw_type kw) (T_CPP :: map fst cpp_names)).
    { assert (H : forallb (fun k => negb (existsb (ttype_eqb (kw_type k)) (T_CPP :: map fst cpp_names))) clang_tokens = true) by (vm_compute; reflexivity).
      rewrite forallb_forall in H. intros kw Hkw Hx. specialize (H kw Hkw). apply negb_true_iff in H.
      assert (existsb (ttype_eqb (kw_type kw)) (T_CPP :: map fst cpp_names) = true).
      { apply existsb_exists. exists (kw_type kw). split; auto. apply ttype_eqb_refl. }
      congruence. }
    inversion Hms; subst; try (intuition congruence).
    + match goal with Hl : longest _ _ _ |- _ => destruct Hl as (Hb & _) end.
      apply (Htab k0 Hb). match goal with Hx : kw_type k0 = _ |- _ => rewrite Hx end. auto.
    + match goal with Hx : kw_type k0 = _, Hy : In k0 _ |- _ => apply (Htab k0 Hy); rewrite Hx end. auto.
  - destruct (H3 t Ht) as [(H & _)|(H & _)]; intuition congruence.
Qed.

(** No directive is read as something else. *)
Theorem C08_none_missed : forall inp in_diff usetabs align k,
  In k (tokens inp in_diff usetabs align) -> nth_error inp (t_off (k_tok k)) <> Some "#"%char.
Proof.
  intros inp in_diff usetabs align k Hk. pose proof (C01_tokens inp in_diff usetabs align) as Hok.
  rewrite Forall_forall in Hok. destruct (Hok k Hk) as (_ & _ & (_ & _ & H) & _). auto.
Qed.

(** Where C ends a directive: at the first newline that is neither spliced by a
    backslash nor inside a comment; comments do not start inside literals. *)
Inductive cst := Code | Slash | Cmt | Star | Line | Str (q : byte) | Esc (q : byte).
Definition cstep (s : cst) (c : byte) : cst :=
  match s with
  | Code => if c =c "/" then Slash else if (c =c DQ) || (c =c SQ) then Str c else Code
  | Slash => if c =c "*" then Cmt else if c =c "/" then Line else if (c =c DQ) || (c =c SQ) then Str c else Code
  | Cmt => if c =c "*" then Star else Cmt
  | Star => if c =c "/" then Code else if c =c "*" then Star else Cmt
  | Line => Line
  | Str q => if c =c BSL then Esc q else if c =c q then Code else Str q
  | Esc q => Str q
  end.
Definition cscan (s : bytes) : cst := fold_left cstep s Code.
Definition in_block (s : cst) : bool := match s with Cmt | Star => true | _ => false end.
(** [s] is the text after the directive name up to the newline. *)
Definition c_stop (s : bytes) : Prop := last s NUL <> BSL /\ in_block (cscan s) = false.

Definition contains (pat s : bytes) : Prop := exists a b, s = a ++ pat ++ b.
Definition tame (s : bytes) : Prop :=
  ~ In DQ s /\ ~ In SQ s /\ ~ contains (s2b "//") s /\ ~ contains (s2b "/*/") s /\ ~ contains (s2b "*/*") s.

Lemma contains_app : forall p s r, contains p s -> contains p (s ++ r).
Proof. intros p s r (a & b & ->). exists a, (b ++ r). rewrite <- !app_assoc. reflexivity. Qed.
Lemma tame_app : forall s r, tame (s ++ r) -> tame s.
Proof.
  intros s r (H1 & H2 & H3 & H4 & H5). repeat split.
  - intros H; apply H1, in_or_app; auto.
  - intros H; apply H2, in_or_app; auto.
  - intros H; apply H3, contains_app; auto.
  - intros H; apply H4, contains_app; auto.
  - intros H; apply H5, contains_app; auto.
Qed.

Definition scan_rel (s : bytes) (st : byte * bool) (c : cst) : Prop :=
  fst st = last s NUL /\ snd st = in_block c /\
  match c with
  | Slash => exists r, s = r ++ s2b "/"
  | Code => fst st <> "/"%char \/ exists r, s = r ++ s2b "*/"
  | Star => exists r, s = r ++ s2b "*"
  | Cmt => fst st <> "*"%char \/ exists r, s = r ++ s2b "/*"
  | _ => False
  end.

Lemma last_snoc : forall (s : bytes) x d, last (s ++ [x]) d = x.
Proof. induction s as [|y s IH]; intros; auto. simpl. rewrite <- (IH x d) at 2. destruct s; reflexivity. Qed.

Lemma scan_rel_step : forall s st c x, tame (s ++ [x]) -> scan_rel s st c ->
  scan_rel (s ++ [x]) (dir_step st x) (cstep c x).
Proof.
  intros s [p com] c x Ht (Hp & Hcom & Hc). cbn [fst snd] in *.
  assert (Hend : forall r pat, s = r ++ pat -> contains (pat ++ [x]) (s ++ [x])).
  { intros r pat ->. exists r, []. rewrite app_nil_r, <- app_assoc. reflexivity. }
  assert (Hpl : forall r y, s = r ++ [y] -> p = y) by (intros r y ->; rewrite last_snoc in Hp; auto).
  assert (Hpl2 : forall r y z, s = r ++ [y; z] -> p = z).
  { intros r y z ->. rewrite Hp. change [y; z] with ([y] ++ [z]). rewrite app_assoc, last_snoc. auto. }
  assert (Hlast : last (s ++ [x]) NUL = x) by apply last_snoc.
  destruct Ht as (T1 & T2 & T3 & T4 & T5).
  assert (HD : (x =c DQ) = false) by (apply Ascii.eqb_neq; intros ->; apply T1, in_or_app; simpl; auto).
  assert (HS : (x =c SQ) = false) by (apply Ascii.eqb_neq; intros ->; apply T2, in_or_app; simpl; auto).
  destruct c; cbn [in_block] in Hcom; subst com; unfold scan_rel, dir_step, cstep; cbn [fst snd]; rewrite ?HD, ?HS; cbn [orb].
  - (* Code *)
    destruct (x =c "/") eqn:Ex.
    + apply Ascii.eqb_eq in Ex. subst x. rewrite Hlast. rewrite !andb_false_r. split; auto.
      split; [|exists s; auto]. destruct (p =c "*"); reflexivity.
    + rewrite andb_false_r. destruct ((p =c "/") && (x =c "*")) eqn:E.
      * exfalso. apply andb_prop in E. destruct E as (E1 & E2). apply Ascii.eqb_eq in E1, E2. subst.
        destruct Hc as [Hc|(r & Hr)]; [congruence|]. apply T5. apply (Hend r _ Hr).
      * rewrite Hlast. split; auto. split; auto. left. apply Ascii.eqb_neq; auto.
  - destruct Hc as (r & Hr). assert (p = "/"%char) by (eapply Hpl; eauto). clear Hp. subst p.
    destruct (x =c "*") eqn:E1.
    + apply Ascii.eqb_eq in E1. subst x. rewrite Hlast. split; auto. split; auto. right. exists r. subst s. rewrite <- app_assoc. reflexivity.
    + destruct (x =c "/") eqn:E2.
      * apply Ascii.eqb_eq in E2. subst. exfalso. apply T3. apply (Hend r (s2b "/")). reflexivity.
      * rewrite Hlast. rewrite !andb_false_r. split; auto. split; auto. left. apply Ascii.eqb_neq; auto.
  - destruct (x =c "*") eqn:E1.
    + apply Ascii.eqb_eq in E1. subst x. rewrite Hlast. rewrite andb_false_r. rewrite andb_true_r. split; auto.
      split; [destruct (p =c "/"); reflexivity|]. exists s; auto.
    + rewrite Hlast, andb_false_r. split; auto. destruct ((p =c "*") && (x =c "/")) eqn:E.
      * exfalso. apply andb_prop in E. destruct E as (E2 & E3). apply Ascii.eqb_eq in E2, E3. subst.
        destruct Hc as [Hc|(r & Hr)]; [congruence|]. apply T4. apply (Hend r _ Hr).
      * split; auto. left. apply Ascii.eqb_neq; auto.
  - destruct Hc as (r & Hr). assert (p = "*"%char) by (eapply Hpl; eauto). clear Hp. subst p.
    destruct (x =c "/") eqn:E1.
    + apply Ascii.eqb_eq in E1. subst x. rewrite Hlast. split; auto. split; auto. right. exists r. subst s. rewrite <- app_assoc. reflexivity.
    + rewrite Hlast. rewrite !andb_false_r. destruct (x =c "*") eqn:E2.
      * apply Ascii.eqb_eq in E2. subst. cbn. split; auto. split; auto. eexists; reflexivity.
      * cbn [andb]. split; auto. split; auto. left. apply Ascii.eqb_neq; auto.
  - contradiction.
  - contradiction.
  - contradiction.
Qed.

Lemma scan_rel_all : forall s, tame s -> scan_rel s (fold_left dir_step s (NUL, false)) (cscan s).
Proof.
  intros s. induction s as [|x s IH] using rev_ind; intros Ht.
  - split; [|split]; auto. left. discriminate.
  - unfold cscan. rewrite !fold_left_app. cbn [fold_left]. apply scan_rel_step; auto. apply IH. eapply tame_app; eauto.
Qed.

(** On directives without literals, // comments and the two sequences the scan of
    clang_read_cpp misreads, the token ends where C ends the directive. *)
Theorem C08_end_partial : forall inp in_diff usetabs align t,
  In t (all_toks (tokens inp in_diff usetabs align)) -> In (t_type t) (T_CPP :: map fst cpp_names) ->
  exists m w n, t_off t <= m /\ m < w <= n /\ n <= t_end t <= length inp /\
    nth_error inp m = Some "#"%char /\ Forall lw (slice inp n (t_end t)) /\
    (tame (slice inp w n) ->
       (n = length inp \/ nth_error inp n = Some NL /\ c_stop (slice inp w n)) /\
       (forall i, w <= i < n -> nth_error inp i = Some NL -> ~ c_stop (slice inp w i))).
Proof.
  intros inp in_diff usetabs align t Hin Hty.
  destruct (C08_directives_partial _ _ _ _ _ Hin) as (m & n & H1 & H2 & H3 & Hd & H4).
  { destruct Hty as [H|H]; auto. apply in_map_iff in H. destruct H as ([ty s] & H & Hi). left. exists ty, s. auto. }
  destruct Hd as (k & w & D1 & D2 & D3 & D4 & (D5 & _) & D6 & D7 & D8 & D9).
  exists m, w, n. repeat (split; [auto; lia|]).
  assert (Hst : forall i, w <= i <= n -> tame (slice inp w n) ->
     c_stop (slice inp w i) <-> fst (dir_state inp w i) <> BSL /\ snd (dir_state inp w i) = false).
  { intros i Hi Ht. assert (Hti : tame (slice inp w i)).
    { apply tame_app with (slice inp i n). rewrite slice_app by lia. auto. }
    destruct (scan_rel_all _ Hti) as (E1 & E2 & _). unfold c_stop, dir_state. rewrite E1, E2. reflexivity. }
  intros Ht. split.
  - destruct D8 as [D8|(D8 & D10)]; auto. right. split; auto. apply Hst; auto; lia.
  - intros i Hi Hn Hs. apply (D9 i Hi). split; auto. apply Hst; auto; lia.
Qed.

(** A comment opening inside a string swallows the following lines. *)
Theorem C08_string_refuted : exists inp t n, In t (all_toks (tokens inp (fun _ => false) true (fun _ => None))) /\
  t_type t = T_CPP_DEFINE /\ t_off t = 0 /\ nth_error inp n = Some NL /\ c_stop (slice inp 7 n) /\
  S n < t_end t /\ nth_error inp (S n) = Some "i"%char.
Proof.
  exists (s2b "#define A ""/*""" ++ [NL] ++ s2b "int x;" ++ [NL]),
    (hd (Tok T_EOF 0%N (Own []) 0 0 0 0) (all_toks (tokens (s2b "#define A ""/*""" ++ [NL] ++ s2b "int x;" ++ [NL]) (fun _ => false) true (fun _ => None)))), 14.
  split; [vm_compute; auto|]. repeat split; try (vm_compute; congruence); try reflexivity. vm_compute. lia.
Qed.

(** /*/ does not close a comment in C, but ends it for the scan of a directive. *)
Theorem C08_slash_refuted : exists inp t, In t (all_toks (tokens inp (fun _ => false) true (fun _ => None))) /\
  t_type t = T_CPP_DEFINE /\ t_off t = 0 /\ t_end t < length inp /\
  in_block (cscan (slice inp 7 (t_end t))) = true.
Proof.
  exists (s2b "#define A /*/ x" ++ [NL] ++ s2b "y */ 1" ++ [NL]),
    (hd (Tok T_EOF 0%N (Own []) 0 0 0 0) (all_toks (tokens (s2b "#define A /*/ x" ++ [NL] ++ s2b "y */ 1" ++ [NL]) (fun _ => false) true (fun _ => None)))).
  split; [vm_compute; auto|]. repeat split; try reflexivity. vm_compute. lia.
Qed.

Example C08_ex : let i := s2b "#define A /* b" ++ [NL] ++ s2b "c */ 1 \" ++ [NL] ++ s2b "+ 2" ++ [NL; NL] ++ s2b " # include <x>" ++ [NL] ++ s2b "int" in
  map (fun t => (t_type t, src i t)) (all_toks (tokens i (fun _ => false) true (fun _ => None))) =
  [(T_CPP_DEFINE, s2b "#define A /* b" ++ [NL] ++ s2b "c */ 1 \" ++ [NL] ++ s2b "+ 2" ++ [NL; NL]);
   (T_CPP_INCLUDE, s2b " # include <x>" ++ [NL]); (T_INT, s2b "int"); (T_EOF, [])] /\
  tame (s2b " A /* b" ++ [NL] ++ s2b "c */ 1 \" ++ [NL] ++ s2b "+ 2").
Proof.
  split; [vm_compute; reflexivity|].
  repeat split; try (vm_compute; intuition discriminate);
  intros (a & b & H); vm_compute in H; repeat (destruct a as [|? a]; [discriminate H|try discriminate H; injection H as _ H]); discriminate H.
Qed.

(** ** C09 *)
(** The text of a comment token that is not the result of merging is its trimmed
    source; that of a merged one is the source up to a length that counts the last
    comment after trimming. *)
Theorem C09_merge_partial : forall inp in_diff usetabs align t,
  In t (all_toks (tokens inp in_diff usetabs align)) -> t_type t = T_COMMENT ->
  comment_text inp (t_off t) (t_end t) /\ text_bytes inp (t_str t) = trimmed (ctrim usetabs) (src inp t) \/
  exists n, comment_run inp (t_off t) n /\ comment_text inp n (t_end t) /\
    (ctrim usetabs (slice inp n (t_end t)) = None -> text_bytes inp (t_str t) = src inp t).
Proof.
  intros inp in_diff usetabs align t Hin Hty.
  destruct (all_comments _ _ _ _ _ Hin Hty) as (_ & (Hpos & _) & _ & [(H1 & H2)|(n & H1 & H2 & H3 & H4 & H5)]); auto.
  right. exists n. split; auto. split; auto. intros Hn. rewrite H5. unfold trimmed. rewrite Hn.
  rewrite slice_length by lia. unfold src. f_equal. lia.
Qed.

(** The text of the second comment is cut off: the closing */ is lost. *)
Theorem C09_merge_refuted : exists inp t, In t (all_toks (tokens inp (fun _ => false) true (fun _ => None))) /\
  t_type t = T_COMMENT /\ src inp t = s2b "/* a */ /* b   " ++ [NL] ++ s2b "   c */" ++ [NL] /\
  text_bytes inp (t_str t) = s2b "/* a */ /* b   " ++ [NL] ++ s2b "   c ".
Proof.
  set (i := s2b "/* a */ /* b   " ++ [NL] ++ s2b "   c */" ++ [NL] ++ s2b "int x;" ++ [NL]).
  exists i, (hd (Tok T_EOF 0%N (Own []) 0 0 0 0) (all_toks (tokens i (fun _ => false) true (fun _ => None)))).
  split; [vm_compute; auto|]. repeat split; vm_compute; reflexivity.
Qed.

Example C09_ex : let i := s2b "/* a */ /* b */" ++ [NL] ++ s2b "int x;" in
  map (fun t => text_bytes i (t_str t)) (filter (fun t => ttype_eqb (t_type t) T_COMMENT) (all_toks (tokens i (fun _ => false) true (fun _ => None))))
  = [s2b "/* a */ /* b */" ++ [NL]].
Proof. vm_compute. reflexivity. Qed.

Print Assumptions C01_tiling. Print Assumptions C01_cover. Print Assumptions C01_order.
Print Assumptions C01_tokens. Print Assumptions C01_discard. Print Assumptions C01_discard_backslash.
Print Assumptions C02_safe. Print Assumptions C02_eof. Print Assumptions C02_eof_tokenized.
Print Assumptions C03_eof_text. Print Assumptions C04_positions. Print Assumptions C04_diff.
Print Assumptions C05_longest. Print Assumptions C06_string. Print Assumptions C06_quote.
Print Assumptions C07_comments. Print Assumptions C07_none_missed.
Print Assumptions C08_directives_partial. Print Assumptions C08_none_missed. Print Assumptions C08_end_partial.
Print Assumptions C08_string_refuted. Print Assumptions C08_slash_refuted.
Print Assumptions C09_merge_partial. Print Assumptions C09_merge_refuted.
