(** C55: regions between clang-format off and on are copied from the input. *)
From Coq Require Import Sorting.Sorted.
From Verif Require Import Base StrModel StrProofs UtilModel UtilProofs DocModel DocProofs DocEmit DocProps.
From Verif Require Import TokenModel LexModel LexSpec LexRefine LexTrivia LexBlank CommentModel CommentProofs LexMain LexAll LexSense LexProps LinesModel LinesProps ParserModel.

(** ** Specification *)
(** The documents without children, in order. *)
Fixpoint leaves (d : doc) : list doc :=
  match d with
  | Concat l => flat_map leaves l
  | Group d | Indent _ d | NoIndent d | Optional d | Minimize _ _ d | Scope d | Maxlines _ d => leaves d
  | _ => [d]
  end.
(** Documents that only affect layout. *)
Definition layout (d : doc) : Prop :=
  match d with
  | DocModel.Line | Softline | Hardline | Optline | DocModel.Align _ _ _ => True
  | Literal s => s = [SP]
  | _ => False
  end.
(** [ds] with layout put in between. *)
Inductive woven : list doc -> list doc -> Prop :=
| wv_nil : woven [] []
| wv_keep : forall d ds es, woven ds es -> woven (d :: ds) (d :: es)
| wv_layout : forall d ds es, layout d -> woven ds es -> woven ds (d :: es).

Definition is_off (t : tok) : bool := has_flag (t_flags t) F_COMMENT_CLANG_FORMAT_OFF.
Definition is_on (t : tok) : bool := has_flag (t_flags t) F_COMMENT_CLANG_FORMAT_ON.
Definition printable (t : tok) : bool := negb (has_flag (t_flags t) F_DISCARD) && negb (has_flag (t_flags t) F_OPTLINE).
(** The texts of tokens in the order in which they are to be printed; [true] for prefixes. *)
Definition items (k : token) : list (bool * tok) :=
  map (pair true) (k_pre k) ++ (false, k_tok k) :: map (pair false) (filter printable (k_suf k)).

Section Spec.
Variable inp : bytes.
(** What to print: the text of every token; but from an off comment to the next on comment,
    or to the end, what stands there in the input. *)
Fixpoint expected (off : option tok) (its : list (bool * tok)) : list bytes :=
  match its with
  | [] => match off with None => [] | Some o => [slice inp (t_end o) (length inp)] end
  | (pre, t) :: r =>
      let turn := if pre && is_off t then Some t else None in
      match off with
      | None => text_bytes inp (t_str t) :: expected turn r
      | Some o =>
          if pre && is_on t then slice inp (t_end o) (t_off t) :: text_bytes inp (t_str t) :: expected turn r
          else expected off r
      end
  end.
(** No off comment within a region. *)
Fixpoint alternate (off : bool) (ts : list tok) : Prop :=
  match ts with
  | [] => True
  | t :: r => if off then (is_on t = false -> is_off t = false) /\ alternate (negb (is_on t) || is_off t) r else alternate (is_off t) r
  end.
(** A line starts at [o]. *)
Definition line_begins (o : nat) : Prop := o = 0 \/ nth_error inp (pred o) = Some NL.
(** Off comments are alone and end their line, on comments start theirs. *)
Definition regular (usetabs : bool) (t : tok) : Prop :=
  (is_off t = true -> single inp (ctrim usetabs) t /\ line_begins (t_end t)) /\ (is_on t = true -> line_begins (t_off t)).
End Spec.
(** Single newlines and spaces count as layout. *)
Definition visible (ts : list bytes) : list bytes := filter (fun s => negb (beq s [NL] || beq s [SP])) ts.

(** ** Texts *)
Definition strs (l : list DocProofs.text) : list bytes := map snd l.
Lemma strs_app : forall a b, strs (a ++ b) = strs a ++ strs b.
Proof. intros. apply map_app. Qed.
Lemma texts_app : forall a b m, texts (Concat (a ++ b)) m =
  (fst (texts (Concat a) m) ++ fst (texts (Concat b) (snd (texts (Concat a) m))), snd (texts (Concat b) (snd (texts (Concat a) m)))).
Proof.
  induction a as [|d a IH]; intros b m; cbn [app].
  - change (texts (Concat []) m) with (@nil DocProofs.text, m). cbn [fst snd app]. apply surjective_pairing.
  - rewrite !texts_cons. rewrite IH. cbn [fst snd]. rewrite app_assoc. reflexivity.
Qed.
Lemma texts_verb : forall s l m, texts (Concat (Verbatim s :: l)) m = (text_of true s m ++ fst (texts (Concat l) m), snd (texts (Concat l) m)).
Proof. intros. rewrite texts_cons. reflexivity. Qed.
Lemma texts_lit : forall s l m, texts (Concat (Literal s :: l)) m = (text_of false s m ++ fst (texts (Concat l) m), snd (texts (Concat l) m)).
Proof. intros. rewrite texts_cons. reflexivity. Qed.
Lemma texts_unmute : forall v l m, texts (Concat (Unmute v :: l)) m = texts (Concat l) (mute_step v m).
Proof. intros. rewrite texts_cons. symmetry. apply surjective_pairing. Qed.
Lemma texts_one : forall d m, texts (Concat [d]) m = texts d m.
Proof. intros. rewrite texts_cons. change (texts (Concat []) (snd (texts d m))) with (@nil DocProofs.text, snd (texts d m)). cbn [fst snd]. rewrite app_nil_r. symmetry. apply surjective_pairing. Qed.
Lemma texts_leaves : forall d m, texts d m = texts (Concat (leaves d)) m.
Proof.
  intros d. induction d using doc_ind'; intros m; cbn [leaves]; try (rewrite texts_one; reflexivity); try (change (texts _ m) with (texts d m) at 1; apply IHd).
  revert m. induction H as [|d l H _ IH]; intros m; cbn [flat_map]; [reflexivity|].
  rewrite texts_cons, texts_app, <- H, <- IH. reflexivity.
Qed.
Lemma texts_woven : forall ds es, woven ds es -> forall m, texts (Concat es) m = texts (Concat ds) m.
Proof.
  induction 1 as [|d ds es H IH|d ds es Hl H IH]; intros m; [reflexivity| |].
  - rewrite !texts_cons, IH. reflexivity.
  - rewrite texts_cons. assert (E : texts d m = ([], m)).
    { destruct d; cbn [layout] in Hl; try contradiction; try reflexivity. subst. cbn [texts]. unfold text_of. rewrite andb_false_r. reflexivity. }
    rewrite E. cbn [fst snd app]. rewrite IH. symmetry. apply surjective_pairing.
Qed.

(** ** Lines *)
Lemma countlines_eq : forall fuel s, length s <= fuel -> countlines fuel s = count_occ_b NL s.
Proof.
  induction fuel as [|f IH]; intros s H; [destruct s; [reflexivity|cbn in H; lia]|]. cbn [countlines].
  set (n := span_len (fun c => negb (c =c NL)) s).
  assert (A : forall s, let n := span_len (fun c => negb (c =c NL)) s in
    (length s <= n /\ count_occ_b NL s = 0) \/ (n < length s /\ count_occ_b NL s = S (count_occ_b NL (skipn (S n) s)))).
  { clear. induction s as [|c s IH]; cbn [span_len]; [left; cbn; auto|]. destruct (c =c NL) eqn:E; cbn [negb].
    - right. cbn [length count_occ_b skipn]. rewrite E. cbn [Nat.add]. split; [lia|reflexivity].
    - cbv zeta in IH. cbn [length count_occ_b]. rewrite E. cbn [Nat.add]. destruct IH as [[A B]|[A B]]; [left; split; [lia|exact B]|right; split; [lia|exact B]]. }
  destruct (A s) as [[B C]|[B C]]; fold n in B, C.
  - destruct (Nat.leb_spec (length s) n); [auto|lia].
  - destruct (Nat.leb_spec (length s) n); [lia|]. rewrite C. rewrite IH; [reflexivity|]. rewrite skipn_length. lia.
Qed.
Lemma start_at : forall inp ls p, split_lines inp ls -> p <= length inp -> line_begins inp p ->
  count_occ_b NL (firstn p inp) < length ls /\ line_start ls (count_occ_b NL (firstn p inp)) = p.
Proof.
  intros inp ls p SL Hp HB. destruct (split_starts _ _ SL) as [LN ST].
  assert (B : nlc inp p <= count_occ_b NL inp).
  { pose proof (nlc_mono inp p (length inp) Hp). unfold nlc in *. rewrite firstn_all in H. exact H. }
  fold (nlc inp p) in *. split; [lia|]. set (i := nlc inp p) in *. destruct (ST i) as [S1 S2]; [lia|]. fold (nlc inp (line_start ls i)) in S1.
  assert (U : forall a b, a < b -> nth_error inp (pred b) = Some NL -> nlc inp a < nlc inp b).
  { intros a b H1 H2. destruct b as [|b]; [lia|]. cbn [pred] in H2. rewrite (nlc_S inp b NL H2). pose proof (nlc_mono inp a b). destruct (Ascii.eqb_spec NL NL); [lia|congruence]. }
  destruct (Nat.lt_trichotomy (line_start ls i) p) as [A|[A|A]]; [|exact A|].
  - destruct HB as [HB|HB]; [lia|]. specialize (U _ _ A HB). fold i in U. lia.
  - destruct S2 as [S2|S2]; [lia|]. specialize (U _ _ A S2). fold i in U. lia.
Qed.
(** Trimming keeps the number of lines. *)
Lemma join_count : forall eol ls, count_occ_b NL eol = 1 -> Forall (fun l => ~ In NL l) ls -> count_occ_b NL (join_lines eol ls) = length ls.
Proof.
  intros eol ls E H. induction H as [|l ls H _ IH]; [reflexivity|]. unfold join_lines in *. cbn [List.map concat length]. rewrite !count_app, E, IH, count_notin by exact H. reflexivity.
Qed.
Lemma trimmed_count : forall usetabs s, count_occ_b NL (trimmed (ctrim usetabs) s) = count_occ_b NL s.
Proof.
  intros usetabs s. unfold trimmed, ctrim. destruct (comment_trim usetabs s) as [[s'|]|] eqn:E; [|reflexivity|reflexivity].
  destruct (comment_trim_result _ _ _ E) as (ls & ls' & eol & -> & N1 & -> & N2 & F & _ & HE). rewrite !join_count by (try assumption; try reflexivity; subst eol; destruct (ends_crlf _); reflexivity).
  clear - F. induction F; cbn; auto.
Qed.

Section Lines.
Variable inp : bytes.
Variable in_diff : nat -> bool.
Variable usetabs : bool.
Variable align : bytes -> option bytes.
Notation lx := (snd (tokenized inp in_diff usetabs align)).

(** The lines of a region are the bytes from the end of its first comment on. *)
Lemma region_lines : forall o ende e, pos_ok inp o -> single inp (ctrim usetabs) o -> line_begins inp (t_end o) -> t_end o <= e ->
  (ende = 0 /\ e = length inp) \/ (ende = S (nlc inp e) /\ e <= length inp /\ line_begins inp e) ->
  get_lines inp lx (t_lno o + countlines (length (text_bytes inp (t_str o))) (text_bytes inp (t_str o))) ende = LSlice (t_end o) (e - t_end o).
Proof.
  intros o ende e (P1 & P2 & P3) [_ TX] HB HE HC. destruct (split_exists inp) as [ls SL].
  rewrite countlines_eq by lia. rewrite TX, trimmed_count, P2. unfold src. fold (nlc inp (t_off o)). cbn [Nat.add].
  rewrite <- nlc_add by lia. destruct (start_at _ _ _ SL (proj2 P1) HB) as [A1 A2]. fold (nlc inp (t_end o)) in A1, A2.
  unfold get_lines. rewrite (table inp in_diff usetabs align ls SL). rewrite map_length, seq_length.
  assert (NT : forall i, i < length ls -> nth_error (List.map (line_start ls) (seq 0 (length ls))) i = Some (line_start ls i)).
  { intros i Hi. rewrite nth_error_map. rewrite (nth_error_nth' (seq 0 (length ls)) 0) by (rewrite seq_length; exact Hi). rewrite seq_nth by exact Hi. reflexivity. }
  destruct (Nat.ltb_spec (length ls) (S (nlc inp (t_end o)))); [lia|]. cbn [orb].
  destruct HC as [[-> ->]|(-> & C1 & C2)].
  - cbn [Nat.ltb Nat.leb]. rewrite NT by lia. rewrite A2. destruct (Nat.leb_spec (t_end o) (length inp)); [reflexivity|lia].
  - destruct (start_at _ _ _ SL C1 C2) as [B1 B2]. fold (nlc inp e) in B1, B2. destruct (Nat.ltb_spec (length ls) (S (nlc inp e))); [lia|].
    rewrite !NT by lia. rewrite A2, B2. destruct (Nat.leb_spec (t_end o) e); [reflexivity|lia].
Qed.

(** ** Documents *)
(** [expected] in steps. *)
Fixpoint run (off : option tok) (its : list (bool * tok)) : list bytes * option tok :=
  match its with
  | [] => ([], off)
  | (pre, t) :: r =>
      let turn := if pre && is_off t then Some t else None in
      match off with
      | None => let '(x, o) := run turn r in (text_bytes inp (t_str t) :: x, o)
      | Some o =>
          if pre && is_on t then let '(x, o') := run turn r in (slice inp (t_end o) (t_off t) :: text_bytes inp (t_str t) :: x, o')
          else run off r
      end
  end.
Lemma expected_run : forall a off b, expected inp off (a ++ b) = fst (run off a) ++ expected inp (snd (run off a)) b.
Proof.
  induction a as [|[pre t] a IH]; intros off b; [reflexivity|]. cbn [app expected run]. destruct off as [o|].
  - destruct (pre && is_on t).
    + rewrite IH. destruct (run (if pre && is_off t then Some t else None) a). reflexivity.
    + apply IH.
  - rewrite IH. destruct (run (if pre && is_off t then Some t else None) a). reflexivity.
Qed.
Definition depth (off : option tok) : Z := match off with Some _ => 1%Z | None => 0%Z end.
Lemma text_visible : forall v s, strs (text_of v s 0) = visible [s].
Proof. intros v s. unfold text_of, visible. cbn [filter Z.eqb andb]. destruct (negb _); reflexivity. Qed.
Lemma text_muted : forall v s o, text_of v s (depth (Some o)) = [].
Proof. reflexivity. Qed.
Lemma visible_app : forall a b, visible (a ++ b) = visible a ++ visible b.
Proof. intros. apply filter_app. Qed.

(** What holds of the comment a region starts with. *)
Definition opened (off : option tok) : Prop :=
  match off with Some o => pos_ok inp o /\ single inp (ctrim usetabs) o /\ line_begins inp (t_end o) | None => True end.
Definition after (off : option tok) (ts : list tok) : Prop := match off with Some o => Forall (fun t => t_end o <= t_off t) ts | None => True end.

Definition before (a c : tok) : Prop := t_end a <= t_off c.

Lemma prefixes_ok : forall l off bad rest, opened off -> after off (l ++ rest) -> alternate (match off with Some _ => true | None => false end) (l ++ rest) ->
  Forall (fun t => pos_ok inp t /\ regular inp usetabs t) l -> StronglySorted before (l ++ rest) ->
  exists ds off', doc_prefixes inp lx false l (PSt off None bad) = (ds, PSt off' None bad) /\
    opened off' /\ after off' rest /\ alternate (match off' with Some _ => true | None => false end) rest /\
    off' = snd (run off (map (pair true) l)) /\
    strs (fst (texts (Concat ds) (depth off))) = visible (fst (run off (map (pair true) l))) /\ snd (texts (Concat ds) (depth off)) = depth off'.
Proof.
  induction l as [|t l IH]; intros off bad rest HO HA HAlt HR HS.
  - exists [], off. cbn. auto 10.
  - cbn [app] in *. inversion HR as [|? ? [Hpos [Roff Ron]] HR']; subst. inversion HS as [|? ? HS' HF]; subst. cbn [map run doc_prefixes andb].
    fold (is_on t) (is_off t).
    assert (ST : opened (if is_off t then Some t else None) /\ after (if is_off t then Some t else None) (l ++ rest)).
    { destruct (is_off t); cbn [opened after]; [|auto]. specialize (Roff eq_refl). split; [split; [exact Hpos|exact Roff]|]. exact HF. }
    assert (OFF : forall o b, (if is_off t then format_off false t (PSt o None b) else ([], PSt o None b)) =
       (if is_off t then [Mute 1] else [], PSt (if is_off t then Some t else o) None b)) by (intros; destruct (is_off t); reflexivity).
    destruct off as [o|].
    + destruct HO as (O1 & O2 & O3). cbn [after] in HA. inversion HA as [|? ? HA1 HA2]; subst. cbn [alternate] in HAlt. destruct HAlt as [AL1 AL2].
      destruct (is_on t) eqn:On.
      * specialize (Ron eq_refl). cbn [negb orb] in AL2.
        assert (V : format_on inp lx false t (PSt (Some o) None bad) = ([Unmute (-1); Verbatim (slice inp (t_end o) (t_off t))], PSt None None bad)).
        { unfold format_on. cbn [orb unmuting p_unmute]. unfold format_verbatim. cbn [p_off p_unmute p_bad]. destruct Hpos as (Q1 & Q2 & _).
          rewrite (region_lines o (t_lno t) (t_off t)); auto; [|right; split; [exact Q2|split; [lia|exact Ron]]]. replace (t_end o + (t_off t - t_end o)) with (t_off t) by lia. reflexivity. }
        rewrite V, OFF. destruct ST as [S1 S2].
        destruct (IH (if is_off t then Some t else None) bad rest S1 S2) as (ds & off' & E & I1 & I2 & I3 & I4 & I5 & I6); [destruct (is_off t); exact AL2|exact HR'|exact HS'|].
        rewrite E. eexists _, off'. split; [reflexivity|]. split; [exact I1|split; [exact I2|split; [exact I3|]]].
        destruct (run (if is_off t then Some t else None) (map (pair true) l)) as [x o'] eqn:Er. cbn [fst snd] in *. split; [exact I4|].
        cbn [app]. rewrite texts_unmute, !texts_verb. cbn [fst snd app]. change (mute_step (-1) (depth (Some o))) with 0%Z.
        change (slice inp (t_end o) (t_off t) :: text_bytes inp (t_str t) :: x) with ([slice inp (t_end o) (t_off t)] ++ [text_bytes inp (t_str t)] ++ x). rewrite !visible_app, <- I5.
        rewrite texts_app. assert (M : texts (Concat (if is_off t then [Mute 1] else [])) 0 = ([], depth (if is_off t then Some t else None))) by (destruct (is_off t); reflexivity).
        rewrite M. cbn [fst snd app]. rewrite !strs_app, !text_visible. auto.
      * specialize (AL1 eq_refl). rewrite AL1 in *. cbn [negb orb] in AL2.
        destruct (IH (Some o) bad rest) as (ds & off' & E & I1 & I2 & I3 & I4 & I5 & I6); auto; [cbn [opened]; auto|]. rewrite E. eexists _, off'. split; [reflexivity|].
        split; [exact I1|split; [exact I2|split; [exact I3|split; [exact I4|]]]]. cbn [app]. rewrite texts_verb. cbn [fst snd]. rewrite text_muted. auto.
    + cbn [alternate] in HAlt. assert (V : (if is_on t then format_on inp lx false t (PSt None None bad) else ([], PSt None None bad)) = ([], PSt None None bad)) by (destruct (is_on t); reflexivity).
      rewrite V, OFF. destruct ST as [S1 S2].
      destruct (IH (if is_off t then Some t else None) bad rest S1 S2) as (ds & off' & E & I1 & I2 & I3 & I4 & I5 & I6); [destruct (is_off t); exact HAlt|exact HR'|exact HS'|].
      rewrite E. eexists _, off'. split; [reflexivity|]. split; [exact I1|split; [exact I2|split; [exact I3|]]].
      destruct (run (if is_off t then Some t else None) (map (pair true) l)) as [x o'] eqn:Er. cbn [fst snd] in *. split; [exact I4|].
      cbn [app]. rewrite texts_verb. cbn [fst snd]. change (text_bytes inp (t_str t) :: x) with ([text_bytes inp (t_str t)] ++ x). rewrite visible_app, <- I5.
      rewrite texts_app. assert (M : texts (Concat (if is_off t then [Mute 1] else [])) (depth None) = ([], depth (if is_off t then Some t else None))) by (destruct (is_off t); reflexivity).
      rewrite M. cbn [fst snd app]. rewrite !strs_app, !text_visible. auto.
Qed.

Lemma run_false : forall l off, run off (map (pair false) l) = (match off with None => map (fun t => text_bytes inp (t_str t)) l | Some _ => [] end, off).
Proof. induction l as [|t l IH]; intros [o|]; cbn [map run andb]; try reflexivity; rewrite IH; reflexivity. Qed.
Lemma run_app : forall a off b, run off (a ++ b) = (fst (run off a) ++ fst (run (snd (run off a)) b), snd (run (snd (run off a)) b)).
Proof.
  induction a as [|[pre t] a IH]; intros off b; cbn [app run fst snd]; [apply surjective_pairing|]. destruct off as [o|].
  - destruct (pre && is_on t); [|apply IH]. rewrite IH. destruct (run (if pre && is_off t then Some t else None) a). reflexivity.
  - rewrite IH. destruct (run (if pre && is_off t then Some t else None) a). reflexivity.
Qed.
Lemma suffixes_ok : forall l off, let x := texts (Concat (flat_map (doc_suffix inp) l)) (depth off) in
  strs (fst x) = visible (fst (run off (map (pair false) (filter printable l)))) /\ snd x = depth off.
Proof.
  intros l off. rewrite run_false. cbn [fst]. induction l as [|t l [IH1 IH2]]; [destruct off; cbn; auto|]. cbv zeta. cbn [flat_map filter]. set (r := flat_map (doc_suffix inp) l) in *. clearbody r. unfold doc_suffix. unfold printable at 1.
  destruct (has_flag (t_flags t) F_DISCARD); cbn [negb andb app]; [auto|]. destruct (has_flag (t_flags t) F_OPTLINE); cbn [negb andb app].
  - rewrite texts_cons. cbn [fst snd texts app]. auto.
  - rewrite texts_verb. cbn [fst snd]. split; [|exact IH2]. destruct off as [o|]; [rewrite text_muted; exact IH1|]. rewrite strs_app. cbn [depth] in *. cbn [map].
    change (text_bytes inp (t_str t) :: map (fun t0 => text_bytes inp (t_str t0)) (filter printable l)) with ([text_bytes inp (t_str t)] ++ map (fun t0 => text_bytes inp (t_str t0)) (filter printable l)).
    rewrite visible_app. f_equal; [apply text_visible|exact IH1].
Qed.

Definition no_branch (k : token) : Prop := has_flag (t_flags (k_tok k)) F_BRANCH = false.
Lemma token_docs : forall k nx off bad rest, opened off -> after off (k_pre k ++ rest) -> alternate (match off with Some _ => true | None => false end) (k_pre k ++ rest) ->
  Forall (fun t => pos_ok inp t /\ regular inp usetabs t) (k_pre k) -> StronglySorted before (k_pre k ++ rest) -> (forall n, nx = Some n -> no_branch n) ->
  exists ds off', doc_token inp lx false k nx (PSt off None bad) = (ds, PSt off' None bad) /\
    opened off' /\ after off' rest /\ alternate (match off' with Some _ => true | None => false end) rest /\
    off' = snd (run off (items k)) /\
    strs (fst (texts (Concat ds) (depth off))) = visible (fst (run off (items k))) /\ snd (texts (Concat ds) (depth off)) = depth off'.
Proof.
  intros k nx off bad rest HO HA HAlt HR HS HN. destruct (prefixes_ok (k_pre k) off bad rest HO HA HAlt HR HS) as (ds & off' & E & I1 & I2 & I3 & I4 & I5 & I6).
  unfold doc_token. cbn [p_unmute andb]. rewrite E. assert (B : (match nx with Some n => has_flag (t_flags (k_tok n)) F_BRANCH | None => false end) = false) by (destruct nx; [apply HN; reflexivity|reflexivity]).
  rewrite B, app_nil_r. cbn [app]. eexists _, off'. split; [reflexivity|]. split; [exact I1|split; [exact I2|split; [exact I3|]]].
  unfold items. rewrite run_app, <- I4. change ((false, k_tok k) :: map (pair false) (filter printable (k_suf k))) with (map (pair false) [k_tok k] ++ map (pair false) (filter printable (k_suf k))).
  destruct (suffixes_ok (k_suf k) off') as [S1 S2]. rewrite run_app. rewrite (run_false [k_tok k] off'). cbn [fst snd]. rewrite run_false in *. cbn [fst snd] in *. split; [reflexivity|].
  rewrite texts_app, I6, texts_lit. cbn [fst snd]. split; [|exact S2]. rewrite !strs_app, I5, S1, !visible_app. f_equal. f_equal.
  destruct off' as [o|]; [rewrite text_muted; reflexivity|]. apply text_visible.
Qed.
Lemma tokens_docs : forall l off bad, opened off -> after off (flat_map k_pre l) -> alternate (match off with Some _ => true | None => false end) (flat_map k_pre l) ->
  Forall (fun t => pos_ok inp t /\ regular inp usetabs t) (flat_map k_pre l) -> StronglySorted before (flat_map k_pre l) -> Forall no_branch l ->
  exists ds off', doc_tokens inp lx l (PSt off None bad) = (ds, PSt off' None bad) /\ opened off' /\
    off' = snd (run off (flat_map items l)) /\
    strs (fst (texts (Concat ds) (depth off))) = visible (fst (run off (flat_map items l))) /\ snd (texts (Concat ds) (depth off)) = depth off'.
Proof.
  induction l as [|k l IH]; intros off bad HO HA HAlt HR HS HN; [exists [], off; cbn; auto|]. cbn [flat_map] in *. apply Forall_app in HR. destruct HR as [HR1 HR2].
  inversion HN as [|? ? _ HN']; subst. cbn [doc_tokens].
  destruct (token_docs k (match l with [] => None | n :: _ => Some n end) off bad (flat_map k_pre l)) as (ds & off' & E & I1 & I2 & I3 & I4 & I5 & I6); auto.
  { intros n En. destruct l; [discriminate|]. inversion En; subst. inversion HN'; auto. }
  rewrite E. assert (HS2 : StronglySorted before (flat_map k_pre l)).
  { clear - HS. induction (k_pre k) as [|t q IHq]; [exact HS|]. cbn [app] in HS. inversion HS; auto. }
  destruct (IH off' bad I1 I2 I3 HR2 HS2 HN') as (ds2 & off2 & E2 & J1 & J2 & J3 & J4). rewrite E2. eexists _, off2. split; [reflexivity|]. split; [exact J1|].
  rewrite run_app, <- I4. cbn [fst snd]. split; [exact J2|]. rewrite texts_app, I6. cbn [fst snd]. rewrite strs_app, I5, J3, visible_app. auto.
Qed.
(** The documents of a whole input. *)
Lemma parser_docs_ok : forall l, let P := flat_map k_pre (emitted l) in alternate false P -> Forall (fun t => pos_ok inp t /\ regular inp usetabs t) P -> StronglySorted before P -> Forall no_branch l ->
  p_bad (snd (parser_docs inp lx l)) = false /\ strs (fst (texts (Concat (fst (parser_docs inp lx l))) 0)) = visible (expected inp None (flat_map items (emitted l))).
Proof.
  intros l P HAlt HR HS HN. assert (HN' : Forall no_branch (emitted l)) by (apply Forall_forall; intros k Hk; apply filter_In in Hk; rewrite Forall_forall in HN; apply HN, Hk).
  destruct (tokens_docs (emitted l) None false I I HAlt HR HS HN') as (ds & off' & E & I1 & I2 & I3 & I4). unfold parser_docs. unfold parser_init. rewrite E.
  rewrite <- (app_nil_r (flat_map items (emitted l))). rewrite expected_run, visible_app, <- I2, <- I3. unfold format_verbatim. cbn [p_off p_bad p_unmute]. destruct off' as [o|].
  - destruct I1 as (P1 & P2 & P3). rewrite (region_lines o 0 (length inp)) by (auto; destruct P1; lia). cbn [fst snd p_bad]. split; [reflexivity|]. cbn [depth] in I4.
    change (depth None) with 0%Z in *. rewrite texts_app, I4. cbn [fst]. rewrite strs_app. f_equal.
    rewrite texts_unmute. change (mute_step (-1) 1) with 0%Z. rewrite texts_verb. cbn [fst]. rewrite strs_app, text_visible. cbn [expected]. destruct P1 as ((_ & P1) & _).
    replace (t_end o + (length inp - t_end o)) with (length inp) by lia. rewrite app_nil_r. reflexivity.
  - cbn [fst snd p_bad expected]. rewrite !app_nil_r. auto.
Qed.
End Lines.

(** ** The tokens of an input *)
Lemma tiles_sorted : forall inp ts a b, tiles inp a ts b -> StronglySorted before ts /\ Forall (fun t => a <= t_off t) ts.
Proof.
  intros inp. induction ts as [|t ts IH]; intros a b H; [split; constructor|]. inversion H as [|? ? ? ? H1 H2 H3 H4]; subst. destruct (IH _ _ H4) as [I1 I2]. split.
  - constructor; [exact I1|]. exact I2.
  - constructor; [exact H1|]. eapply Forall_impl; [|exact I2]. cbv beta. intros u Hu. lia.
Qed.
Lemma sorted_sub : forall ts f, StronglySorted before ts -> StronglySorted before (filter f ts).
Proof.
  intros ts f H. induction H as [|t ts H IH HF]; [constructor|]. cbn [filter]. destruct (f t); [|exact IH]. constructor; [exact IH|].
  rewrite Forall_forall in *. intros u Hu. apply filter_In in Hu. apply HF, Hu.
Qed.
Lemma sorted_app_l : forall a c, StronglySorted before (a ++ c) -> StronglySorted before a.
Proof. induction a as [|t a IH]; intros c H; [constructor|]. cbn [app] in H. inversion H as [|? ? H1 H2]; subst. apply Forall_app in H2. constructor; [eapply IH; eauto|tauto]. Qed.
Lemma sorted_app_r : forall a c, StronglySorted before (a ++ c) -> StronglySorted before c.
Proof. induction a as [|t a IH]; intros c H; [exact H|]. inversion H; auto. Qed.
Lemma sorted_cross : forall a c x y, StronglySorted before (a ++ c) -> In x a -> In y c -> before x y.
Proof.
  induction a as [|t a IH]; intros c x y H Hx Hy; [destruct Hx|]. cbn [app] in H. inversion H as [|? ? H1 H2]; subst. destruct Hx as [<-|Hx]; [|eapply IH; eauto].
  rewrite Forall_forall in H2. apply H2. apply in_or_app. auto.
Qed.
Lemma sorted_concat : forall a c, StronglySorted before a -> StronglySorted before c -> (forall x y, In x a -> In y c -> before x y) -> StronglySorted before (a ++ c).
Proof.
  induction a as [|t a IH]; intros c HA HC HX; [exact HC|]. inversion HA as [|? ? H1 H2]; subst. cbn [app]. constructor.
  - apply IH; auto. intros x y Hx Hy. apply HX; [right|]; auto.
  - apply Forall_app. split; [exact H2|]. apply Forall_forall. intros y Hy. apply HX; [left|]; auto.
Qed.
Lemma prefixes_sorted : forall ks, StronglySorted before (all_toks ks) -> StronglySorted before (flat_map k_pre ks).
Proof.
  induction ks as [|k ks IH]; intros H; [constructor|]. change (all_toks (k :: ks)) with (token_toks k ++ all_toks ks) in H. cbn [flat_map].
  apply sorted_concat.
  - apply sorted_app_l in H. unfold token_toks in H. apply sorted_app_l in H. exact H.
  - apply IH. apply sorted_app_r in H. exact H.
  - intros x y Hx Hy. eapply sorted_cross; [exact H| |].
    + unfold token_toks. apply in_or_app. auto.
    + apply in_flat_map in Hy. destruct Hy as (k' & Hk & Hy). apply in_flat_map. exists k'. split; [exact Hk|]. unfold token_toks. apply in_or_app. auto.
Qed.
Lemma emitted_pre : forall l, flat_map k_pre (emitted l) = flat_map k_pre l.
Proof.
  induction l as [|k l IH]; [reflexivity|]. cbn [emitted filter flat_map]. fold (emitted l). destruct (negb (is_eof k) || negb (length (k_pre k) =? 0)) eqn:E; cbn [flat_map]; rewrite IH; [reflexivity|].
  apply orb_false_iff in E. destruct E as [_ E]. apply negb_false_iff, Nat.eqb_eq in E. destruct (k_pre k); [reflexivity|discriminate].
Qed.
Lemma lexed : forall inp in_diff usetabs align l, fst (tokenized inp in_diff usetabs align) = Some l ->
  StronglySorted before (flat_map k_pre l) /\ Forall (pos_ok inp) (flat_map k_pre l) /\ Forall no_branch l.
Proof.
  intros inp in_diff usetabs align l Hl. destruct (C01_discard inp in_diff usetabs align) as (l' & H1 & H2 & H3 & _). rewrite Hl in H1. inversion H1; subst l'. clear H1.
  rewrite H3. pose proof (C01_tiling inp in_diff usetabs align) as HT. apply tiles_sorted in HT. destruct HT as [HT _].
  pose proof (C01_tokens inp in_diff usetabs align) as HK. rewrite Forall_forall in HK. split; [apply prefixes_sorted; exact HT|split].
  - apply Forall_forall. intros t Ht. apply in_flat_map in Ht. destruct Ht as (k & Hk & Ht). destruct (HK k Hk) as (HP & _). rewrite Forall_forall in HP. destruct (HP t Ht) as [(_ & H & _)|(H & _)]; exact H.
  - apply Forall_forall. intros k Hk. assert (Hin : In (k_tok k) (map k_tok l)) by (apply in_map; exact Hk). rewrite H2 in Hin. apply in_map_iff in Hin. destruct Hin as (k' & E & Hk'). apply filter_In in Hk'.
    unfold no_branch. rewrite <- E. destruct (HK k' (proj1 Hk')) as (_ & (_ & _ & fl & Hfl & Hms) & _). unfold flags_ok in Hfl. rewrite Hfl.
    assert (Htab : forall kw, In kw clang_tokens -> has_flag (kw_flags kw) F_BRANCH = false).
    { assert (H : forallb (fun k => negb (has_flag (kw_flags k) F_BRANCH)) clang_tokens = true) by (vm_compute; reflexivity). rewrite forallb_forall in H. intros kw Hkw. apply negb_true_iff, H, Hkw. }
    assert (HF : has_flag fl F_BRANCH = false).
    { inversion Hms; subst; try reflexivity; apply Htab; auto. match goal with X : longest _ _ _ |- _ => destruct X; auto end. }
    destruct (in_diff (t_lno (k_tok k'))); [|exact HF]. unfold has_flag in *. rewrite N.land_lor_distr_l. change (N.land F_DIFF F_BRANCH) with 0%N. rewrite N.lor_0_r. exact HF.
Qed.

(** ** C55 *)
(** For every input whose off comments are alone and end their line, whose on comments start
    theirs and that are not nested: however the documents of its tokens are laid out, what is
    printed is the texts of the tokens outside of the regions and, for each region, the
    bytes of the input, all in order and with only blanks in between. *)
Theorem C55_regions : forall inp in_diff usetabs align l limit tabs n d trim buf,
  let lx := snd (tokenized inp in_diff usetabs align) in
  fst (tokenized inp in_diff usetabs align) = Some l ->
  alternate false (flat_map k_pre l) -> Forall (regular inp usetabs) (flat_map k_pre l) ->
  woven (fst (parser_docs inp lx l)) (leaves d) -> wf n d ->
  p_bad (snd (parser_docs inp lx l)) = false /\
  let '(out, bad) := doc_exec limit tabs d trim buf in
  bad = false /\
  exists k, rendered (buf :: visible (expected inp None (flat_map items (emitted l)))) (out ++ repeat NL k) /\
    (trim = false -> k = 0) /\ (trim = true -> forall x, out <> x ++ [NL; NL]).
Proof.
  intros inp in_diff usetabs align l limit tabs n d trim buf lx Hl HAlt HR HW Hwf. destruct (lexed _ _ _ _ _ Hl) as (H1 & H2 & H3).
  destruct (parser_docs_ok inp in_diff usetabs align l) as [A B]; rewrite ?emitted_pre; auto.
  { rewrite Forall_forall in *. intros t Ht. auto. }
  fold lx in A, B. split; [exact A|]. pose proof (C17_texts limit tabs n d trim buf Hwf) as C. rewrite texts_leaves, (texts_woven _ _ HW) in C.
  unfold strs in B. rewrite B in C. exact C.
Qed.

(** ** A region stands in the output as it stands in the input *)
Lemma rendered_split : forall ts2 ts1 r x o, ~ tb x -> rendered (ts1 ++ (r ++ [x]) :: ts2) o ->
  exists a b, o = a ++ (r ++ [x]) ++ b /\ rendered ts1 a /\ rendered ts2 b.
Proof.
  induction ts2 as [|t ts2 IH] using rev_ind; intros ts1 r x o Hx H.
  - inversion H as [w Hw E|ts o' c z w H1 Hz Hw E]; [destruct ts1; discriminate|].
    apply app_inj_tail in E. destruct E as [-> E]. destruct (snoc_cases _ z) as [->|(z' & y & ->)].
    + rewrite app_nil_r in E. subst c. exists o', w. split; [reflexivity|]. split; [exact H1|apply rd_nil; exact Hw].
    + rewrite app_assoc in E. apply app_inj_tail in E. destruct E as [_ ->]. apply Forall_app in Hz. destruct Hz as [_ Hz]. inversion Hz; contradiction.
  - rewrite app_comm_cons, app_assoc in H. inversion H as [w Hw E|ts o' c z w H1 Hz Hw E].
    + destruct ts1; discriminate.
    + apply app_inj_tail in E. destruct E as [-> <-]. destruct (IH _ _ _ _ Hx H1) as (a & b & -> & A & B). exists a, (b ++ c ++ w).
      rewrite <- !app_assoc. split; [reflexivity|]. split; [exact A|]. apply rd_snoc; auto.
Qed.
Definition prefixes_of (its : list (bool * tok)) : list tok := map snd (filter fst its).
Lemma prefixes_items : forall l, prefixes_of (flat_map items l) = flat_map k_pre l.
Proof.
  induction l as [|k l IH]; [reflexivity|]. cbn [flat_map]. unfold prefixes_of in *. rewrite filter_app, map_app, IH. f_equal.
  assert (A : forall ts : list tok, map snd (filter fst (map (pair true) ts)) = ts) by (induction ts as [|t ts H]; cbn; [|rewrite H]; reflexivity).
  assert (B : forall ts : list tok, filter fst (map (pair false) ts) = []) by (induction ts; cbn; auto).
  unfold items. rewrite filter_app, map_app, A. cbn [filter fst]. rewrite B. apply app_nil_r.
Qed.
Lemma run_alternate : forall inp a off o r, alternate (match off with Some _ => true | None => false end) (prefixes_of (a ++ (true, o) :: r)) ->
  is_off o = true -> is_on o = false -> snd (run inp off a) = None.
Proof.
  intros inp. induction a as [|[pre t] a IH]; intros off o r HA HO HN; unfold prefixes_of in *; cbn [app filter fst map snd run] in *.
  - destruct off; [|reflexivity]. cbn [alternate] in HA. destruct HA as [HA _]. rewrite (HA HN) in HO. discriminate.
  - assert (K : forall x : option tok, alternate (match x with Some _ => true | None => false end) (map snd (filter fst (a ++ (true, o) :: r))) -> snd (run inp x a) = None) by (intros; eapply IH; eauto).
    destruct pre; cbn [andb fst snd filter map alternate] in *.
    + destruct off as [p|].
      * cbn [alternate snd] in HA. destruct HA as [HA1 HA2]. destruct (is_on t) eqn:E; cbn [negb orb] in HA2.
        -- specialize (K (if is_off t then Some t else None)). destruct (run inp _ a). cbn [snd] in *. apply K. destruct (is_off t); exact HA2.
        -- apply K. exact HA2.
      * specialize (K (if is_off t then Some t else None)). destruct (run inp _ a). cbn [snd] in *. apply K. destruct (is_off t); exact HA.
    + destruct off as [p|]; [apply K; exact HA|]. specialize (K None HA). destruct (run inp None a). exact K.
Qed.
Lemma run_region : forall inp m o, (forall u, In (true, u) m -> is_on u = false) -> run inp (Some o) m = ([], Some o).
Proof.
  intros inp. induction m as [|[pre t] m IH]; intros o H; [reflexivity|]. cbn [run].
  destruct pre; cbn [andb]; [rewrite (H t) by (left; reflexivity)|]; apply IH; intros u Hu; apply H; right; exact Hu.
Qed.

(** The bytes of a region, from the line after its off comment to the line of its on comment,
    are found in the output, between what is printed of what comes before and after. *)
Theorem C55_verbatim : forall inp in_diff usetabs align l limit tabs n d trim buf a o m t c,
  let lx := snd (tokenized inp in_diff usetabs align) in
  let region := slice inp (t_end o) (t_off t) in
  fst (tokenized inp in_diff usetabs align) = Some l ->
  alternate false (flat_map k_pre l) -> Forall (regular inp usetabs) (flat_map k_pre l) ->
  woven (fst (parser_docs inp lx l)) (leaves d) -> wf n d ->
  flat_map items (emitted l) = a ++ (true, o) :: m ++ (true, t) :: c ->
  is_off o = true -> is_on o = false -> is_on t = true -> (forall u, In (true, u) m -> is_on u = false) ->
  region <> [] -> region <> [NL] ->
  exists before after x y k, let '(out, bad) := doc_exec limit tabs d trim buf in
    bad = false /\ out ++ repeat NL k = x ++ region ++ y /\ (trim = false -> k = 0) /\
    rendered (buf :: visible (before ++ [text_bytes inp (t_str o)])) x /\
    rendered (visible (text_bytes inp (t_str t) :: after)) y /\
    expected inp None (flat_map items (emitted l)) = before ++ text_bytes inp (t_str o) :: region :: text_bytes inp (t_str t) :: after.
Proof.
  intros inp in_diff usetabs align l limit tabs n d trim buf a o m t c lx region Hl HAlt HR HW Hwf Hits Ho Hno Ht Hm N1 N2.
  destruct (C55_regions inp in_diff usetabs align l limit tabs n d trim buf Hl HAlt HR HW Hwf) as [_ HC].
  assert (HI : forall u, In (true, u) (flat_map items (emitted l)) -> In u (flat_map k_pre l)).
  { intros u Hu. rewrite <- emitted_pre, <- prefixes_items. unfold prefixes_of. apply in_map_iff. exists (true, u). split; [reflexivity|]. apply filter_In. auto. }
  assert (HE : expected inp None (flat_map items (emitted l)) = fst (run inp None a) ++ text_bytes inp (t_str o) :: region :: text_bytes inp (t_str t) :: expected inp (if is_off t then Some t else None) c).
  { rewrite Hits, expected_run. f_equal. rewrite (run_alternate inp a None o (m ++ (true, t) :: c)); auto.
    - cbn [expected andb]. rewrite Ho, expected_run, run_region by exact Hm. cbn [fst snd app expected andb]. rewrite Ht. reflexivity.
    - rewrite <- Hits, prefixes_items, emitted_pre. exact HAlt. }
  exists (fst (run inp None a)), (expected inp (if is_off t then Some t else None) c).
  assert (HB : exists r, region = r ++ [NL]).
  { assert (Hreg : line_begins inp (t_off t)).
    { rewrite Forall_forall in HR. apply HR; [|exact Ht]. apply HI. rewrite Hits. apply in_or_app. right. right. apply in_or_app. right. left. reflexivity. }
    destruct (Nat.le_gt_cases (t_off t) (t_end o)) as [HLe|HLt]; [exfalso; apply N1; unfold region, slice; replace (t_off t - t_end o) with 0 by lia; reflexivity|].
    destruct Hreg as [Hreg|Hreg]; [lia|]. exists (slice inp (t_end o) (pred (t_off t))). unfold region.
    replace (t_off t) with (S (pred (t_off t))) at 1 by lia. apply slice_S; [lia|exact Hreg]. }
  destruct HB as [r HB]. destruct (doc_exec limit tabs d trim buf) as [out bad]. destruct HC as [HC1 (k & HC2 & HC3 & _)].
  rewrite HE in HC2.
  assert (V : visible (fst (run inp None a) ++ text_bytes inp (t_str o) :: region :: text_bytes inp (t_str t) :: expected inp (if is_off t then Some t else None) c)
    = visible (fst (run inp None a) ++ [text_bytes inp (t_str o)]) ++ region :: visible (text_bytes inp (t_str t) :: expected inp (if is_off t then Some t else None) c)).
  { change (text_bytes inp (t_str o) :: region :: text_bytes inp (t_str t) :: expected inp (if is_off t then Some t else None) c)
      with ([text_bytes inp (t_str o)] ++ [region] ++ text_bytes inp (t_str t) :: expected inp (if is_off t then Some t else None) c). rewrite app_assoc, !visible_app. f_equal.
    assert (W : visible [region] = [region]); [|rewrite W; reflexivity]. unfold visible. cbn [filter]. destruct (beq region [NL]) eqn:E1; [apply beq_eq in E1; congruence|].
    destruct (beq region [SP]) eqn:E2; [|reflexivity]. apply beq_eq in E2. rewrite HB in E2. destruct r as [|? [|]]; discriminate. }
  rewrite V, app_comm_cons, HB in HC2. apply rendered_split in HC2; [|intros [E|E]; discriminate E]. destruct HC2 as (x & y & E & X & Y).
  exists x, y, k. rewrite HB. split; [exact HC1|]. split; [exact E|]. split; [exact HC3|]. split; [exact X|]. split; [exact Y|]. rewrite HE, HB. reflexivity.
Qed.

(** ** Which comments start and end a region *)
(** A comment before a token starts a region if and only if it is on one line and its
    introducer is followed by " clang-format off", and ends one for " clang-format on"; of
    several comments on a line the first one counts.  Other prefixes never do. *)
Theorem C55_recognised : forall inp in_diff usetabs align l t,
  fst (tokenized inp in_diff usetabs align) = Some l -> In t (flat_map k_pre l) ->
  (t_type t = T_COMMENT -> exists m n, first_comment inp t m n /\
     (is_off t = true <-> marker inp (s2b "off") m n) /\ (is_on t = true <-> marker inp (s2b "on") m n)) /\
  (t_type t <> T_COMMENT -> is_off t = false /\ is_on t = false).
Proof.
  intros inp in_diff usetabs align l t Hl Ht. destruct (C01_discard inp in_diff usetabs align) as (l' & H1 & _ & H3 & _). rewrite Hl in H1. inversion H1; subst l'. clear H1.
  rewrite H3 in Ht. pose proof (all_sensed inp in_diff usetabs align (FUEL inp) lexer_init 0 (R_init inp)) as HF. rewrite Forall_forall in HF. specialize (HF t Ht). unfold sense_ok in HF.
  destruct (ttype_eqb (t_type t) T_COMMENT) eqn:E; split; intros Hty.
  - exact HF.
  - apply ttype_eqb_eq in E. contradiction.
  - rewrite Hty in E. discriminate.
  - exact HF.
Qed.

(** ** Examples *)
Lemma block_text : forall inp o m k e, o <= m -> m + 2 <= k -> k + 2 <= e <= length inp ->
  forallb (fun c => (c =c SP) || (c =c TAB)) (slice inp o m) = true -> starts_with (s2b "/*") (skipn m inp) = true -> starts_with (s2b "*/") (skipn k inp) = true ->
  forallb (fun j => negb (starts_with (s2b "*/") (skipn j inp))) (seq (m + 2) (k - (m + 2))) = true ->
  forallb (fun c => (c =c SP) || (c =c NL)) (slice inp (k + 2) e) = true -> comment_text inp o e.
Proof.
  intros inp o m k e H1 H2 H3 H4 H5 H6 H7 H8. exists m, (k + 2). split; [exact H1|]. split; [exact H3|]. split.
  - apply Forall_forall. rewrite forallb_forall in H4. intros c Hc. specialize (H4 c Hc). apply orb_true_iff in H4. unfold sp. destruct H4 as [H4|H4]; apply eqb_true in H4; auto.
  - split.
    + left. split; [apply starts_with_spec; exact H5|]. left. exists k. split; [exact H2|]. split; [reflexivity|]. split; [apply starts_with_spec; exact H6|].
      intros j Hj Ho. rewrite forallb_forall in H7. specialize (H7 j). assert (Hin : In j (seq (m + 2) (k - (m + 2)))) by (apply in_seq; lia). specialize (H7 Hin).
      apply starts_with_spec in Ho. rewrite Ho in H7. discriminate.
    + apply Forall_forall. rewrite forallb_forall in H8. intros c Hc. specialize (H8 c Hc). apply orb_true_iff in H8. unfold bl. destruct H8 as [H8|H8]; apply eqb_true in H8; auto 10.
Qed.
Lemma strip_nls : forall k, strip (repeat NL k) = [].
Proof. intros k. apply strip_bn. apply Forall_forall. intros c Hc. apply repeat_spec in Hc. right. exact Hc. Qed.
(** Some layout. *)
Definition lay (ds : list doc) : list doc :=
  flat_map (fun d => match d with Literal s => if beq s (s2b ";") then [d; Hardline] else [d; Literal [SP]] | _ => [d] end) ds.
Lemma lay_woven : forall ds, woven ds (lay ds).
Proof.
  induction ds as [|d ds IH]; [constructor|]. change (lay (d :: ds)) with ((match d with Literal s => if beq s (s2b ";") then [d; Hardline] else [d; Literal [SP]] | _ => [d] end) ++ lay ds).
  destruct d; try (apply wv_keep; exact IH). destruct (beq _ (s2b ";")); apply wv_keep; apply wv_layout; try exact IH; cbn; auto.
Qed.
Definition none_diff : nat -> bool := fun _ => false.
Definition none_align : bytes -> option bytes := fun _ => None.
Definition toks55 (inp : bytes) : list token := match fst (tokenized inp none_diff false none_align) with Some l => l | None => [] end.
Definition docs55 (inp : bytes) : list doc := fst (parser_docs inp (snd (tokenized inp none_diff false none_align)) (toks55 inp)).
Definition lines (l : list bytes) : bytes := flat_map (fun s => s ++ [NL]) l.

Definition in55 : bytes := lines [s2b "int  a;"; s2b "/* clang-format off */"; s2b "int   b  ;"; s2b "  /* clang-format on */"; s2b "int  c;"].
Example C55_ex : let l := toks55 in55 in let d := Concat (lay (docs55 in55)) in
  fst (tokenized in55 none_diff false none_align) = Some l /\
  alternate false (flat_map k_pre l) /\ Forall (regular in55 false) (flat_map k_pre l) /\
  woven (docs55 in55) (leaves d) /\ wf 0 d /\
  doc_exec 80 true d true [] = (lines [s2b "int a ;"; s2b "/* clang-format off */"; s2b "int   b  ;"; s2b "  /* clang-format on */"; s2b "int c ;"], false).
Proof.
  cbv zeta. split; [vm_compute; reflexivity|]. split; [vm_compute; intuition discriminate|]. split.
  - assert (E : flat_map k_pre (toks55 in55) = [Tok T_COMMENT F_COMMENT_CLANG_FORMAT_OFF (Own (lines [s2b "/* clang-format off */"])) 8 31 2 1; Tok T_COMMENT F_COMMENT_CLANG_FORMAT_ON (Own (lines [s2b "  /* clang-format on */"])) 42 66 4 1]) by (vm_compute; reflexivity).
    rewrite E. apply Forall_cons; [|apply Forall_cons; [|apply Forall_nil]].
    + split; [intros _|discriminate]. split; [|right; reflexivity]. split; [|vm_compute; reflexivity].
      apply (block_text _ 8 8 28); try (vm_compute; reflexivity); cbn [t_off t_end]; change (length in55) with 74; lia.
    + split; [discriminate|intros _]. right; reflexivity.
  - split; [|split; vm_compute; intuition discriminate].
    assert (E : leaves (Concat (lay (docs55 in55))) = lay (docs55 in55)) by (vm_compute; reflexivity). rewrite E. apply lay_woven.
Qed.
Example C55_recognised_ex : map (fun t => (is_off t, is_on t)) (flat_map k_pre (toks55 in55)) = [(true, false); (false, true)] /\
  map (fun t => (is_off t, is_on t)) (flat_map k_pre (toks55 (lines [s2b "// text"; s2b "// clang-format off"; s2b "int a;"; s2b "/* clang-format off"; s2b "*/"; s2b "int b;"]))) = [(false, false); (false, false)].
Proof. vm_compute. auto. Qed.

(** ** Where the claim fails *)
(** If a second off comment stands within a region, what follows the region is not printed. *)
Definition in55b : bytes := lines [s2b "/* clang-format off */"; s2b "int   b;"; s2b "/* clang-format off */"; s2b "int   x;"; s2b "/* clang-format on */"; s2b "int  c;"].
Theorem C55_nested_refuted : exists inp l d n, fst (tokenized inp none_diff false none_align) = Some l /\
  Forall (regular inp false) (flat_map k_pre l) /\ woven (docs55 inp) (leaves d) /\ wf n d /\
  forall k, ~ rendered (visible (expected inp None (flat_map items (emitted l)))) (fst (doc_exec 80 true d false []) ++ repeat NL k).
Proof.
  exists in55b, (toks55 in55b), (Concat (lay (docs55 in55b))), 0. split; [vm_compute; reflexivity|]. split; [|split; [|split]].
  - assert (E : flat_map k_pre (toks55 in55b) = [Tok T_COMMENT F_COMMENT_CLANG_FORMAT_OFF (Own (lines [s2b "/* clang-format off */"])) 0 23 1 1; Tok T_COMMENT F_COMMENT_CLANG_FORMAT_OFF (Own (lines [s2b "/* clang-format off */"])) 32 55 3 1; Tok T_COMMENT F_COMMENT_CLANG_FORMAT_ON (Own (lines [s2b "/* clang-format on */"])) 64 86 5 1]) by (vm_compute; reflexivity).
    rewrite E. apply Forall_cons; [|apply Forall_cons; [|apply Forall_cons; [|apply Forall_nil]]].
    + split; [intros _|discriminate]. split; [|right; reflexivity]. split; [|vm_compute; reflexivity].
      apply (block_text _ 0 0 20); try (vm_compute; reflexivity); cbn [t_off t_end]; change (length in55b) with 94; lia.
    + split; [intros _|discriminate]. split; [|right; reflexivity]. split; [|vm_compute; reflexivity].
      apply (block_text _ 32 32 52); try (vm_compute; reflexivity); cbn [t_off t_end]; change (length in55b) with 94; lia.
    + split; [discriminate|intros _]. right; reflexivity.
  - assert (E : leaves (Concat (lay (docs55 in55b))) = lay (docs55 in55b)) by (vm_compute; reflexivity). rewrite E. apply lay_woven.
  - vm_compute; intuition discriminate.
  - intros k H. apply rendered_strip in H. rewrite strip_app, strip_nls, app_nil_r in H. vm_compute in H. discriminate.
Qed.
(** If code follows the off comment on its line, that line is printed twice up to there. *)
Definition in55c : bytes := lines [s2b "/* clang-format off */ int   x;"; s2b "/* clang-format on */"; s2b "int  c;"].
Theorem C55_line_refuted : exists inp l d n, fst (tokenized inp none_diff false none_align) = Some l /\
  alternate false (flat_map k_pre l) /\ woven (docs55 inp) (leaves d) /\ wf n d /\
  forall k, ~ rendered (visible (expected inp None (flat_map items (emitted l)))) (fst (doc_exec 80 true d false []) ++ repeat NL k).
Proof.
  exists in55c, (toks55 in55c), (Concat (lay (docs55 in55c))), 0. split; [vm_compute; reflexivity|]. split; [vm_compute; intuition discriminate|split; [|split]].
  - assert (E : leaves (Concat (lay (docs55 in55c))) = lay (docs55 in55c)) by (vm_compute; reflexivity). rewrite E. apply lay_woven.
  - vm_compute; intuition discriminate.
  - intros k H. apply rendered_strip in H. rewrite strip_app, strip_nls, app_nil_r in H. vm_compute in H. discriminate.
Qed.
Print Assumptions C55_regions.
Print Assumptions C55_verbatim.
Print Assumptions C55_recognised.
Print Assumptions C55_nested_refuted.
Print Assumptions C55_line_refuted.
