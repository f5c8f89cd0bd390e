(** Proofs about comment.c. *)
From Verif Require Import Base StrModel StrProofs UtilModel UtilProofs CommentModel.

(** ** Specification *)
(** Joining lines, each followed by [eol]. *)
Definition join_lines (eol : bytes) (ls : list bytes) : bytes := concat (map (fun l => l ++ eol) ls).
Definition blank_lead (c : byte) : Prop := c = SP \/ c = TAB.
Definition nonblank (l : bytes) : bytes := filter (fun c => negb (isspace c)) l.

(** One line before and after: the blanks in front of a '*' or '/' may be replaced by
    others of the same width, all blanks at the end are removed. *)
Definition line_rel (l l' : bytes) : Prop :=
  exists ws ws' body trail, l = ws ++ body ++ trail /\ l' = ws' ++ body /\
    Forall (fun c => isspace c = true) trail /\
    (ws' = ws \/ Forall blank_lead ws /\ Forall blank_lead ws' /\
                 display_col ws' 0 = display_col ws 0 /\
                 exists c, hd_error body = Some c /\ (c = "*"%char \/ c = "/"%char)).

Definition no_trail (l : bytes) : Prop := forall p c, l = p ++ [c] -> isspace c = false.

(** ** Functional form *)
Fixpoint rstrip (l : bytes) : bytes :=
  match l with
  | [] => []
  | c :: r => match rstrip r with
              | [] => if isspace c then [] else [c]
              | r' => c :: r'
              end
  end.

Definition wsp (c : byte) : bool := (c =c SP) || (c =c TAB).
Definition starts_body (l : bytes) : bool :=
  match l with c :: _ => (c =c "*") || (c =c "/") | [] => false end.

Definition trim_line (t : bool) (l : bytes) : bytes :=
  let n := span_len wsp l in
  if (0 <? n) && starts_body (skipn n l)
  then fst (strindent (strwidth (firstn n l) 0) t 0) ++ rstrip (skipn n l)
  else rstrip l.

Lemma rstrip_app_space : forall l s, Forall (fun c => isspace c = true) s -> rstrip (l ++ s) = rstrip l.
Proof.
  induction l as [|x l IH]; simpl; intros s Hs.
  - induction Hs; simpl; auto. rewrite IHHs, H. auto.
  - rewrite IH; auto.
Qed.

Lemma rstrip_app_nospace : forall l c, isspace c = false -> rstrip (l ++ [c]) = l ++ [c].
Proof.
  induction l as [|x l IH]; simpl; intros c Hc.
  - rewrite Hc; auto.
  - rewrite IH by auto. destruct l; auto.
Qed.

Lemma rstrip_spec : forall l, exists t, l = rstrip l ++ t /\ Forall (fun c => isspace c = true) t /\ no_trail (rstrip l).
Proof.
  induction l as [|x l IH]; simpl.
  - exists []. repeat split; auto. intros p c H. destruct p; discriminate.
  - destruct IH as (t & Hl & Ht & Hn). destruct (rstrip l) as [|y r] eqn:E.
    + destruct (isspace x) eqn:Ex.
      * exists (x :: t). simpl in *. subst. repeat split; auto.
      * exists t. simpl in *. subst. repeat split; auto. intros p c H. destruct p; [inv H; auto|].
        simpl in H. inv H. destruct p; discriminate.
    + exists t. simpl in *. split; [congruence|]. split; auto.
      intros p c H. destruct p; [discriminate|]. simpl in H. injection H as H1 H2. apply (Hn p c); auto.
Qed.

Lemma rstrip_id : forall l, no_trail l -> rstrip l = l.
Proof.
  intros l. destruct l as [|x l] using rev_ind; intros H; auto.
  apply rstrip_app_nospace. eapply H; eauto.
Qed.

Lemma rstrip_firstn : forall l n, rskipws l n <= n /\
  (n <= length l -> firstn (rskipws l n) l = rstrip (firstn n l)).
Proof.
  intros l. induction n as [|n [IH1 IH2]]; cbn [rskipws]; [simpl; auto|].
  destruct (nth_error l n) as [c|] eqn:E.
  - destruct (isspace c) eqn:Ec.
    + split; [lia|]. intros H. rewrite IH2 by lia. rewrite (firstn_S_nth _ _ _ E).
      rewrite rstrip_app_space; auto.
    + split; auto. intros H. rewrite (firstn_S_nth _ _ _ E), rstrip_app_nospace; auto.
  - split; auto. apply nth_error_None in E. lia.
Qed.

Lemma nextline_app : forall l r, ~ In NL l -> nextline (l ++ NL :: r) = Some (S (length l)).
Proof.
  induction l as [|x l IH]; intros r H; simpl.
  - reflexivity.
  - destruct (x =c NL) eqn:E; [apply eqb_true in E; subst; exfalso; apply H; left; auto|].
    rewrite IH by (intros Hin; apply H; right; auto). auto.
Qed.
Lemma nextline_none : forall l, ~ In NL l -> nextline l = None.
Proof.
  induction l as [|x l IH]; intros H; simpl; auto.
  destruct (x =c NL) eqn:E; [apply eqb_true in E; subst; exfalso; apply H; left; auto|].
  rewrite IH by (intros Hin; apply H; right; auto). auto.
Qed.

Lemma span_len_app_stop : forall (p : byte -> bool) l c r, p c = false ->
  span_len p (l ++ c :: r) = span_len p l.
Proof. induction l; simpl; intros; [rewrite H; auto|]. destruct (p a); auto. Qed.

Lemma span_len_app_all : forall (p : byte -> bool) a b, Forall (fun c => p c = true) a ->
  span_len p (a ++ b) = length a + span_len p b.
Proof. induction 1; simpl; auto. rewrite H. rewrite IHForall. auto. Qed.

Lemma in_skipn : forall {A} (x : A) n l, In x (skipn n l) -> In x l.
Proof. intros. rewrite <- (firstn_skipn n l). apply in_or_app; auto. Qed.

Lemma firstn_S_app : forall {A} (a : list A) x r, firstn (S (length a)) (a ++ x :: r) = a ++ [x].
Proof. induction a; simpl; intros; auto. f_equal. apply IHa. Qed.
Lemma skipn_S_app : forall {A} (a : list A) x r, skipn (S (length a)) (a ++ x :: r) = r.
Proof. induction a; simpl; intros; auto. apply IHa. Qed.

Lemma trim_lead_line : forall t l r, ~ In NL l ->
  exists ind sp1, trim_lead t (l ++ NL :: r) = Some (ind, sp1 ++ NL :: r) /\ ~ In NL sp1 /\
  ind ++ rstrip sp1 = trim_line t l.
Proof.
  intros t l r Hnl. unfold trim_lead, skipws, trim_line. fold wsp.
  change (fun c : byte => (c =c SP) || (c =c TAB)) with wsp.
  rewrite span_len_app_stop by reflexivity.
  pose proof (span_len_le wsp l) as Hle. set (n := span_len wsp l) in *.
  destruct (Nat.eq_dec n 0) as [En|En].
  - rewrite En. exists [], l. simpl. auto.
  - assert (Hn : (0 <? n) = true) by (apply Nat.ltb_lt; lia).
    replace (match n with 0 => None | S n0 => Some (S n0) end) with (Some n) by (destruct n; congruence).
    assert (Hnth : nth_error (l ++ NL :: r) n = hd_error (skipn n l ++ NL :: r)).
    { rewrite nth_error_skipn. rewrite skipn_app. replace (n - length l) with 0 by lia. auto. }
    rewrite Hnth, Hn. cbn [andb].
    destruct (skipn n l) as [|c r'] eqn:Es.
    + simpl. exists [], l. simpl. auto.
    + cbn [hd_error app]. unfold starts_body. destruct ((c =c "*") || (c =c "/")) eqn:Ec.
      * exists (fst (strindent (strwidth (firstn n l) 0) t 0)), (c :: r').
        rewrite firstn_app. replace (n - length l) with 0 by lia. rewrite firstn_O, app_nil_r.
        split; [|split; auto].
        -- f_equal. f_equal. rewrite skipn_app. replace (n - length l) with 0 by lia. rewrite Es. auto.
        -- rewrite <- Es. intros Hin. apply Hnl. eapply in_skipn; eauto.
      * exists [], l. simpl. auto.
Qed.

Lemma trim_loop_lines : forall ls fuel t crlf, Forall (fun l => ~ In NL l) ls -> length ls < fuel ->
  trim_loop fuel t crlf (join_lines [NL] ls) =
  Some (join_lines ((if crlf then [CR] else []) ++ [NL]) (map (trim_line t) ls)).
Proof.
  induction ls as [|l ls IH]; intros fuel t crlf H Hf; (destruct fuel; [simpl in Hf; lia|]).
  - reflexivity.
  - inv H. cbn [trim_loop]. unfold join_lines in *. cbn [map concat]. rewrite <- app_assoc.
    cbn [app]. destruct (trim_lead_line t l (concat (map (fun l => l ++ [NL]) ls)) H2) as (ind & sp1 & E & Hn & Hi).
    rewrite E. rewrite nextline_app by auto.
    assert (Hsk : skipn (S (length sp1)) (sp1 ++ NL :: concat (map (fun l => l ++ [NL]) ls)) =
                  concat (map (fun l => l ++ [NL]) ls)).
    { apply skipn_S_app. }
    rewrite Hsk. rewrite IH; auto; [|simpl in Hf; lia].
    f_equal. rewrite <- Hi, <- !app_assoc. f_equal.
    destruct (rstrip_firstn (sp1 ++ NL :: concat (map (fun l => l ++ [NL]) ls)) (S (length sp1))) as [_ Hr].
    rewrite Hr by (rewrite app_length; simpl; lia).
    replace (firstn (S (length sp1)) (sp1 ++ NL :: concat (map (fun l => l ++ [NL]) ls))) with (sp1 ++ [NL]).
    2:{ symmetry. apply firstn_S_app. }
    rewrite rstrip_app_space by (repeat constructor).
    f_equal.
Qed.

(** Every text ending in a newline is a joined list of lines. *)
Lemma split_lines : forall b, exists ls last, b = join_lines [NL] ls ++ last /\
  Forall (fun l => ~ In NL l) ls /\ ~ In NL last.
Proof.
  induction b as [|c b IH].
  - exists [], []. auto.
  - destruct IH as (ls & last & Hb & Hls & Hlast).
    destruct (c =c NL) eqn:E.
    + apply eqb_true in E; subst. exists ([] :: ls), last. split; [reflexivity|]. auto.
    + apply eqb_false in E. destruct ls as [|l ls].
      * exists [], (c :: last). simpl in *. subst. repeat split; auto. intros [?|?]; [congruence|auto].
      * exists ((c :: l) :: ls), last. simpl in *. inv Hls. split; [reflexivity|].
        split; auto. constructor; auto. intros [?|?]; [congruence|auto].
Qed.

Lemma join_lines_last : forall eol ls l, join_lines eol (ls ++ [l]) = join_lines eol ls ++ l ++ eol.
Proof. intros. unfold join_lines. rewrite map_app, concat_app. simpl. rewrite app_nil_r. auto. Qed.

Lemma split_lines_nl : forall b p, b = p ++ [NL] -> exists ls l, b = join_lines [NL] (ls ++ [l]) /\
  Forall (fun l => ~ In NL l) (ls ++ [l]).
Proof.
  intros b p Hb. destruct (split_lines p) as (ls & last & Hp & Hls & Hlast).
  exists ls, last. rewrite join_lines_last. split; [subst; rewrite app_assoc; auto|].
  apply Forall_app; auto.
Qed.

Lemma length_join : forall eol ls, eol <> [] -> length ls <= length (join_lines eol ls).
Proof.
  intros eol ls He. induction ls; simpl; auto. unfold join_lines in *. simpl.
  rewrite !app_length. destruct eol; [congruence|]. simpl. lia.
Qed.

Definition ends_crlf (b : bytes) : bool :=
  match rev b with c1 :: c2 :: _ => (c1 =c NL) && (c2 =c CR) | _ => false end.

Lemma comment_trim_lines : forall t ls l, Forall (fun l => ~ In NL l) (ls ++ [l]) ->
  comment_trim t (join_lines [NL] (ls ++ [l])) =
  Some (Some (join_lines ((if ends_crlf (join_lines [NL] (ls ++ [l])) then [CR] else []) ++ [NL])
                         (map (trim_line t) (ls ++ [l])))).
Proof.
  intros t ls l H. unfold comment_trim.
  set (b := join_lines [NL] (ls ++ [l])) in *.
  assert (Hb : b = (join_lines [NL] ls ++ l) ++ [NL]) by (unfold b; rewrite join_lines_last, app_assoc; auto).
  assert (Hlen : length b = S (length (join_lines [NL] ls ++ l))) by (rewrite Hb, app_length; simpl; lia).
  rewrite Hlen. cbn [Nat.eqb]. replace (S (length (join_lines [NL] ls ++ l)) - 1) with (length (join_lines [NL] ls ++ l)) by lia.
  assert (Hlast : nth_error b (length (join_lines [NL] ls ++ l)) = Some NL).
  { rewrite Hb. rewrite nth_error_app2 by lia. rewrite Nat.sub_diag. auto. }
  rewrite Hlast. cbn [negb]. rewrite eqb_refl. cbn [negb].
  assert (Hcr : (2 <=? S (length (join_lines [NL] ls ++ l))) &&
     match nth_error b (S (length (join_lines [NL] ls ++ l)) - 2) with Some c => c =c CR | None => false end = ends_crlf b).
  { unfold ends_crlf. rewrite Hb. rewrite rev_app_distr. cbn [rev app].
    set (p := join_lines [NL] ls ++ l). destruct p as [|x p'] using rev_ind.
    - reflexivity.
    - rewrite rev_app_distr. cbn [rev app]. rewrite eqb_refl. cbn [andb].
      rewrite app_length. cbn [length].
      replace (S (length p' + 1) - 2) with (length p') by lia.
      rewrite nth_error_app1 by (rewrite app_length; simpl; lia).
      rewrite nth_error_app2 by lia. rewrite Nat.sub_diag. cbn [nth_error].
      destruct (Nat.leb_spec 2 (S (length p' + 1))); [auto|lia]. }
  rewrite Hcr. rewrite <- Hlen. 
  pose proof (trim_loop_lines (ls ++ [l]) (S (length b)) t (ends_crlf b) H) as HT. fold b in HT.
  rewrite HT; auto.
  pose proof (length_join [NL] (ls ++ [l])). fold b in H0.
  assert (length (ls ++ [l]) <= length b) by (apply H0; discriminate). lia.
Qed.

(** ** Properties of one line *)
Lemma starts_body_hd : forall l, starts_body l = true -> exists c, hd_error l = Some c /\ (c = "*"%char \/ c = "/"%char).
Proof.
  destruct l; simpl; intros; [discriminate|]. apply orb_true_iff in H. rewrite !eqb_true in H. eauto.
Qed.

Lemma wsp_blank : forall l, Forall blank_lead (firstn (span_len wsp l) l).
Proof.
  intros. eapply Forall_impl; [|apply span_len_all]. intros c H. unfold wsp in H.
  apply orb_true_iff in H. rewrite !eqb_true in H. exact H.
Qed.

Lemma strindent_blank : forall n t, Forall blank_lead (fst (strindent n t 0)) /\
  display_col (fst (strindent n t 0)) 0 = n.
Proof.
  intros n t. destruct (strindent n t 0) as [o p] eqn:E.
  apply strindent_spec in E. destruct E as (E1 & E2 & _ & _ & E5). simpl.
  split.
  - eapply Forall_impl; [|exact E2]. unfold blank_lead; tauto.
  - rewrite <- E1. rewrite E5 by auto. lia.
Qed.

Lemma blank_isspace : forall c, blank_lead c -> isspace c = true.
Proof. intros c [ -> | -> ]; reflexivity. Qed.

Lemma rstrip_hd : forall l c, hd_error l = Some c -> isspace c = false -> hd_error (rstrip l) = Some c.
Proof.
  destruct l as [|x l]; simpl; intros c H Hc; [discriminate|]. inv H.
  destruct (rstrip l); simpl; auto. rewrite Hc; auto.
Qed.

Lemma trim_line_rel : forall t l, line_rel l (trim_line t l) /\ no_trail (trim_line t l).
Proof.
  intros t l. unfold trim_line. destruct ((0 <? span_len wsp l) && starts_body (skipn (span_len wsp l) l)) eqn:E.
  - apply andb_true_iff in E. destruct E as [E1 E2]. apply starts_body_hd in E2. destruct E2 as (c & Hc & Hcc).
    set (n := span_len wsp l) in *.
    destruct (rstrip_spec (skipn n l)) as (tr & Htr & Htr2 & Hno).
    assert (Hc2 : isspace c = false) by (destruct Hcc; subst; reflexivity).
    pose proof (rstrip_hd _ _ Hc Hc2) as Hc'.
    destruct (strindent_blank (strwidth (firstn n l) 0) t) as [Hb1 Hb2].
    split.
    + exists (firstn n l), (fst (strindent (strwidth (firstn n l) 0) t 0)), (rstrip (skipn n l)), tr.
      split; [rewrite <- Htr, firstn_skipn; auto|]. split; auto. split; auto. right.
      split; [apply wsp_blank|]. split; auto. split; [rewrite Hb2; apply strwidth_spec|]. eauto.
    + intros p x Hp. destruct (rstrip (skipn n l)) as [|y r] eqn:Er using rev_ind; [discriminate|].
      rewrite app_assoc in Hp. apply app_inj_tail in Hp. destruct Hp as [_ ->].
      apply (Hno r x); auto.
  - destruct (rstrip_spec l) as (tr & Htr & Htr2 & Hno). split; auto.
    exists [], [], (rstrip l), tr. simpl. auto 10.
Qed.

Lemma nonblank_app : forall a b, nonblank (a ++ b) = nonblank a ++ nonblank b.
Proof. intros; unfold nonblank; apply filter_app. Qed.
Lemma nonblank_spaces : forall l, Forall (fun c => isspace c = true) l -> nonblank l = [].
Proof. induction 1; simpl; auto. rewrite H. auto. Qed.

Lemma line_rel_nonblank : forall l l', line_rel l l' -> nonblank l' = nonblank l.
Proof.
  intros l l' (ws & ws' & body & trail & -> & -> & Ht & H).
  rewrite !nonblank_app, (nonblank_spaces trail), app_nil_r by auto. f_equal.
  destruct H as [->|(H1 & H2 & _)]; auto.
  rewrite !nonblank_spaces; auto; eapply Forall_impl; try eassumption; intros; apply blank_isspace; auto.
Qed.

Lemma trim_line_idem : forall t l cr, cr = [] \/ cr = [CR] ->
  trim_line t (trim_line t l ++ cr) = trim_line t l.
Proof.
  intros t l cr Hcr.
  assert (Hsp : Forall (fun c => isspace c = true) cr) by (destruct Hcr; subst; repeat constructor).
  assert (Hnt := proj2 (trim_line_rel t l)).
  assert (HR : rstrip (trim_line t l ++ cr) = trim_line t l).
  { rewrite rstrip_app_space by auto. apply rstrip_id; auto. }
  destruct ((0 <? span_len wsp l) && starts_body (skipn (span_len wsp l) l)) eqn:E.
  - assert (Hl' : trim_line t l = fst (strindent (strwidth (firstn (span_len wsp l) l) 0) t 0) ++
       rstrip (skipn (span_len wsp l) l)) by (unfold trim_line; rewrite E; auto).
    apply andb_true_iff in E. destruct E as [E1 E2]. apply starts_body_hd in E2. destruct E2 as (c & Hc & Hcc).
    set (n := span_len wsp l) in *.
    assert (Hc2 : isspace c = false) by (destruct Hcc; subst; reflexivity).
    assert (Hw : wsp c = false) by (destruct Hcc; subst; reflexivity).
    pose proof (rstrip_hd _ _ Hc Hc2) as Hc'.
    destruct (strindent_blank (strwidth (firstn n l) 0) t) as [Hb1 Hb2].
    set (ind := fst (strindent (strwidth (firstn n l) 0) t 0)) in *.
    destruct (rstrip (skipn n l)) as [|y r] eqn:Er; [discriminate|]. simpl in Hc'. inv Hc'.
    rewrite Hl' in *. unfold trim_line at 1.
    assert (Hspan : span_len wsp ((ind ++ c :: r) ++ cr) = length ind).
    { rewrite <- app_assoc. rewrite span_len_app_all.
      - cbn [app]. simpl. rewrite Hw. lia.
      - eapply Forall_impl; [|exact Hb1]. intros x [ -> | -> ]; reflexivity. }
    rewrite Hspan. rewrite HR.
    assert (Hfi : firstn (length ind) ((ind ++ c :: r) ++ cr) = ind).
    { rewrite <- app_assoc, firstn_app, firstn_all, Nat.sub_diag, firstn_O, app_nil_r; auto. }
    assert (Hsk : skipn (length ind) ((ind ++ c :: r) ++ cr) = (c :: r) ++ cr).
    { rewrite <- app_assoc, skipn_app, skipn_all, Nat.sub_diag; auto. }
    rewrite Hfi, Hsk.
    rewrite (strwidth_spec ind), Hb2.
    destruct ((0 <? length ind) && starts_body ((c :: r) ++ cr)); auto.
    fold ind. f_equal. rewrite rstrip_app_space by auto. rewrite <- Er.
    destruct (rstrip_spec (skipn n l)) as (_ & _ & _ & Hno). apply rstrip_id; auto.
  - assert (Hl' : trim_line t l = rstrip l) by (unfold trim_line; rewrite E; auto).
    rewrite Hl' in *. unfold trim_line. rewrite HR.
    destruct ((0 <? span_len wsp (rstrip l ++ cr)) && starts_body (skipn (span_len wsp (rstrip l ++ cr)) (rstrip l ++ cr))) eqn:E2; auto.
    exfalso. apply andb_true_iff in E2. destruct E2 as [E2 E3].
    destruct (rstrip_spec l) as (tr & Htr & Htr2 & Hno).
    set (r := rstrip l) in *. clearbody r.
    assert (Hcr0 : forall m, starts_body (skipn m cr) = false).
    { clear -Hcr. intros m. destruct Hcr; subst; destruct m; simpl; auto; destruct m; auto. }
    assert (Hlt : span_len wsp (r ++ cr) < length r).
    { destruct (Nat.lt_ge_cases (span_len wsp (r ++ cr)) (length r)); auto.
      rewrite skipn_app, skipn_all2 in E3 by auto. simpl in E3. rewrite Hcr0 in E3. discriminate. }
    assert (Hsame : forall s, span_len wsp (r ++ s) = span_len wsp r).
    { clear - Hlt. revert Hlt. induction r as [|x r IH]; simpl; intros; [lia|].
      destruct (wsp x); auto. f_equal. apply IH. lia. }
    rewrite Hsame in *. rewrite Htr in E. rewrite Hsame in E. rewrite E2 in E. cbn [andb] in E.
    rewrite skipn_app in E, E3. replace (span_len wsp r - length r) with 0 in * by lia.
    destruct (skipn (span_len wsp r) r) eqn:Es.
    + assert (Hz := skipn_length (span_len wsp r) r). rewrite Es in Hz. simpl in Hz. lia.
    + simpl in E, E3. congruence.
Qed.

(** ** Results *)
Lemma comment_trim_defined : forall t b, exists r, comment_trim t b = Some r.
Proof.
  intros t b. destruct b as [|c p] using rev_ind; [exists None; reflexivity|].
  destruct (c =c NL) eqn:E.
  - apply eqb_true in E; subst. destruct (split_lines_nl (p ++ [NL]) p eq_refl) as (ls & l & Hb & Hn).
    rewrite Hb. rewrite comment_trim_lines by auto. eauto.
  - exists None. unfold comment_trim. rewrite app_length. cbn [length].
    rewrite Nat.add_1_r. cbn [Nat.eqb]. replace (S (length p) - 1) with (length p) by lia.
    rewrite nth_error_app2, Nat.sub_diag by lia. cbn [nth_error]. rewrite E. auto.
Qed.

Lemma comment_trim_null : forall t b, comment_trim t b = Some None <-> ~ exists p, b = p ++ [NL].
Proof.
  intros t b. destruct b as [|c p] using rev_ind.
  - split; [intros _ [p H]; destruct p; discriminate|reflexivity].
  - destruct (c =c NL) eqn:E.
    + apply eqb_true in E; subst. destruct (split_lines_nl (p ++ [NL]) p eq_refl) as (ls & l & Hb & Hn).
      rewrite Hb at 1. rewrite comment_trim_lines by auto. split; [discriminate|]. intros H. exfalso; eauto.
    + apply eqb_false in E. split.
      * intros _ [q H]. apply app_inj_tail in H. tauto.
      * intros _. unfold comment_trim. rewrite app_length. cbn [length].
        rewrite Nat.add_1_r. cbn [Nat.eqb]. replace (S (length p) - 1) with (length p) by lia.
        rewrite nth_error_app2, Nat.sub_diag by lia. cbn [nth_error].
        apply eqb_false in E. rewrite E. auto.
Qed.

Lemma comment_trim_some : forall t b b', comment_trim t b = Some (Some b') ->
  exists ls l, b = join_lines [NL] (ls ++ [l]) /\ Forall (fun l => ~ In NL l) (ls ++ [l]) /\
  b' = join_lines ((if ends_crlf b then [CR] else []) ++ [NL]) (map (trim_line t) (ls ++ [l])).
Proof.
  intros t b b' H. destruct b as [|c p] using rev_ind; [discriminate|].
  destruct (c =c NL) eqn:E.
  - apply eqb_true in E; subst. destruct (split_lines_nl (p ++ [NL]) p eq_refl) as (ls & l & Hb & Hn).
    rewrite Hb in *. rewrite comment_trim_lines in H by auto. inv H. eauto.
  - exfalso. assert (comment_trim t (p ++ [c]) = Some None); [|congruence].
    apply comment_trim_null. intros [q Hq]. apply app_inj_tail in Hq. destruct Hq; subst. discriminate.
Qed.

(** The declarative form used in the final theorem. *)
Definition trim_result (b b' : bytes) : Prop :=
  exists ls ls' eol, b = join_lines [NL] ls /\ Forall (fun l => ~ In NL l) ls /\
    b' = join_lines eol ls' /\ Forall (fun l => ~ In NL l) ls' /\
    Forall2 line_rel ls ls' /\ Forall no_trail ls' /\
    eol = (if ends_crlf b then [CR; NL] else [NL]).

Lemma line_rel_no_nl : forall l l', line_rel l l' -> ~ In NL l -> ~ In NL l'.
Proof.
  intros l l' (ws & ws' & body & trail & -> & -> & Ht & H) Hn Hin.
  apply in_app_or in Hin. destruct Hin as [Hin|Hin].
  - destruct H as [->|(H1 & H2 & _)].
    + apply Hn, in_or_app; auto.
    + rewrite Forall_forall in H2. apply H2 in Hin. destruct Hin; discriminate.
  - apply Hn, in_or_app; right. apply in_or_app; auto.
Qed.

Lemma comment_trim_result : forall t b b', comment_trim t b = Some (Some b') -> trim_result b b'.
Proof.
  intros t b b' H. apply comment_trim_some in H. destruct H as (ls & l & Hb & Hn & Hb').
  exists (ls ++ [l]), (map (trim_line t) (ls ++ [l])), (if ends_crlf b then [CR; NL] else [NL]).
  split; auto. split; auto. split; [rewrite Hb'; destruct (ends_crlf b); auto|].
  split.
  { apply Forall_map. eapply Forall_impl; [|exact Hn]. intros a Ha.
    eapply line_rel_no_nl; [apply trim_line_rel|auto]. }
  split.
  { clear. induction (ls ++ [l]); simpl; constructor; auto. apply trim_line_rel. }
  split; auto. apply Forall_map. apply Forall_forall. intros; apply trim_line_rel.
Qed.

Lemma nonblank_join : forall eol ls ls', Forall2 line_rel ls ls' ->
  Forall (fun c => isspace c = true) eol ->
  nonblank (join_lines eol ls') = nonblank (join_lines [NL] ls).
Proof.
  intros eol ls ls' H He. induction H; auto. unfold join_lines in *. simpl.
  rewrite !nonblank_app, IHForall2, (nonblank_spaces eol), (line_rel_nonblank _ _ H) by auto.
  simpl. rewrite app_nil_r. auto.
Qed.

Lemma comment_trim_nonblank : forall t b b', comment_trim t b = Some (Some b') -> nonblank b' = nonblank b.
Proof.
  intros t b b' H. apply comment_trim_result in H.
  destruct H as (ls & ls' & eol & -> & _ & -> & _ & H & _ & ->).
  apply nonblank_join; auto. destruct (ends_crlf _); repeat constructor.
Qed.

Lemma ends_crlf_app : forall a b, ends_crlf (a ++ b ++ [CR; NL]) = true.
Proof. intros. unfold ends_crlf. rewrite app_assoc, rev_app_distr. reflexivity. Qed.

Lemma comment_trim_idem : forall t b b', comment_trim t b = Some (Some b') ->
  comment_trim t b' = Some (Some b').
Proof.
  intros t b b' H. apply comment_trim_some in H. destruct H as (ls & l & Hb & Hn & Hb').
  set (cr := if ends_crlf b then [CR] else []) in *.
  assert (Hcr : cr = [] \/ cr = [CR]) by (unfold cr; destruct (ends_crlf b); auto).
  assert (Hlines : forall xs, join_lines (cr ++ [NL]) xs = join_lines [NL] (map (fun x => x ++ cr) xs)).
  { intros xs. unfold join_lines. rewrite map_map. f_equal. apply map_ext. intros. rewrite app_assoc; auto. }
  assert (Hmap : map (fun x => x ++ cr) (map (trim_line t) (ls ++ [l])) =
     map (fun x => x ++ cr) (map (trim_line t) ls) ++ [trim_line t l ++ cr]).
  { rewrite !map_app. reflexivity. }
  assert (Hb2 : b' = join_lines [NL] (map (fun x => x ++ cr) (map (trim_line t) ls) ++ [trim_line t l ++ cr])).
  { rewrite Hb', Hlines, Hmap. auto. }
  assert (Hcrlf : ends_crlf b' = ends_crlf b).
  { rewrite Hb', map_app. cbn [map]. rewrite join_lines_last. unfold cr. destruct (ends_crlf b) eqn:Ec.
    - cbn [app]. apply ends_crlf_app.
    - cbn [app]. unfold ends_crlf. rewrite app_assoc, rev_app_distr. cbn [rev app].
      set (p := join_lines [NL] (map (trim_line t) ls)).
      pose proof (proj2 (trim_line_rel t l)) as Hno.
      destruct (trim_line t l) as [|x r] eqn:Et using rev_ind.
      + rewrite app_nil_r. unfold p. destruct (map (trim_line t) ls) as [|y ys] using rev_ind; auto.
        rewrite join_lines_last, !rev_app_distr. cbn [rev app]. cbn. auto.
      + rewrite app_assoc, rev_app_distr. cbn [rev app]. rewrite eqb_refl. cbn [andb].
        destruct (x =c CR) eqn:Ex; auto. apply eqb_true in Ex; subst. specialize (Hno r CR eq_refl). discriminate. }
  rewrite Hb2. rewrite comment_trim_lines.
  - f_equal. f_equal. rewrite <- Hb2, Hcrlf. fold cr. rewrite <- Hmap, Hlines.
    rewrite Hb', Hlines. f_equal. rewrite !map_map. apply map_ext. intros a. rewrite trim_line_idem; auto.
  - rewrite <- Hmap. apply Forall_map, Forall_map. eapply Forall_impl; [|exact Hn]. intros a Ha Hin.
    apply in_app_or in Hin. destruct Hin as [Hin|Hin].
    + eapply line_rel_no_nl in Hin; eauto. apply trim_line_rel.
    + destruct Hcr as [Hcr|Hcr]; rewrite Hcr in Hin; [destruct Hin|destruct Hin as [Hin|[]]; discriminate].
Qed.
