(** C24: aligning continuations changes only blanks. *)
From Coq Require Import Lia.
From Verif Require Import Base StrModel UtilModel UtilProofs DocModel DocProofs RulerModel RulerProps CppAlignModel.

(** ** Specification. *)
(** A continued line: its text, the blanks in front of the backslash before and after. *)
Record cont := Cont { k_body : bytes; k_ws : bytes; k_pad : bytes }.
Definition src (k : cont) : bytes := k_body k ++ k_ws k ++ [BSL; NL].
Definition dst (k : cont) : bytes := k_body k ++ k_pad k ++ [BSL; NL].
Definition cont_ok (k : cont) : Prop :=
  (forall c, In c (k_ws k) -> isspace c = true) /\ (forall c, In c (k_pad k) -> c = SP \/ c = TAB) /\
  ~ In NL (k_body k) /\ ~ In NL (k_ws k) /\ (forall x c, k_body k = x ++ [c] -> isspace c = false).
Definition continued (s : bytes) : Prop := exists a b, s = a ++ BSL :: NL :: b /\ ~ In NL a.

(** ** Lines. *)
Lemma memchr_some : forall s c n, memchr s c = Some n -> exists b, s = firstn n s ++ c :: b /\ length (firstn n s) = n /\ ~ In c (firstn n s).
Proof.
  induction s as [|x s IH]; intros c n H; cbn [memchr] in H; [discriminate|]. destruct (Ascii.eqb_spec x c) as [->|N].
  - inversion H; subst. exists s. cbn. auto.
  - destruct (memchr s c) as [m|] eqn:E; [|discriminate]. inversion H; subst. destruct (IH c m E) as (b & B1 & B2 & B3). exists b. cbn [firstn app length]. split; [f_equal; exact B1|]. split; [f_equal; exact B2|]. intros [Q|Q]; [congruence|contradiction].
Qed.
Lemma memchr_here : forall a c b, ~ In c a -> memchr (a ++ c :: b) c = Some (length a).
Proof.
  induction a as [|x a IH]; intros c b H; cbn [app memchr length].
  - rewrite Ascii.eqb_refl. reflexivity.
  - destruct (Ascii.eqb_spec x c) as [->|N]; [exfalso; apply H; left; reflexivity|]. rewrite IH by (intros Q; apply H; right; exact Q). reflexivity.
Qed.
Lemma span_split : forall p (s : bytes), exists a b, s = a ++ b /\ span_len p s = length a /\ (forall c, In c a -> p c = true) /\ (forall c t, b = c :: t -> p c = false).
Proof.
  intros p. induction s as [|c s IH]; [exists [], []; repeat split; auto; intros; try contradiction; discriminate|]. cbn [span_len]. destruct (p c) eqn:E.
  - destruct IH as (a & b & E1 & E2 & E3 & E4). exists (c :: a), b. subst s. cbn [app length]. rewrite E2. repeat split; auto. intros d [<-|H]; auto.
  - exists [], (c :: s). split; [reflexivity|]. split; [reflexivity|]. split; [intros d []|]. intros d t H. inversion H; subst. exact E.
Qed.
Lemma nextline_some : forall s e nx, nextline s = Some (e, nx) -> exists body ws r, s = body ++ ws ++ [BSL; NL] ++ r /\ e = length body /\ nx = length (body ++ ws ++ [BSL; NL]) /\
  (forall c, In c ws -> isspace c = true) /\ ~ In NL body /\ ~ In NL ws /\ (forall x c, body = x ++ [c] -> isspace c = false).
Proof.
  intros s e nx H. unfold nextline in H. destruct (memchr s NL) as [[|q]|] eqn:E; try discriminate. destruct (Ascii.eqb_spec (nth q s NUL) BSL) as [B|]; [|discriminate]. inversion H; subst e nx. clear H.
  destruct (memchr_some s NL (S q) E) as (r & E1 & E2 & E3).
  assert (LS : q < length s) by (rewrite E1, app_length; cbn [length]; lia).
  assert (FQ : firstn (S q) s = firstn q s ++ [BSL]).
  { clear - B LS. revert q B LS. induction s as [|x s IH]; intros q B LS; [cbn in LS; lia|]. destruct q as [|q]; [cbn in *; subst; reflexivity|]. cbn [firstn app nth length] in *. f_equal. apply IH; [exact B|lia]. }
  destruct (span_split isspace (rev (firstn q s))) as (a & b & S1 & S2 & S3 & S4). rewrite S2.
  assert (FB : firstn q s = rev b ++ rev a) by (rewrite <- rev_app_distr, <- S1, rev_involutive; reflexivity).
  assert (LQ : q = length (rev b) + length a) by (rewrite <- (rev_length a), <- app_length, <- FB, firstn_length; lia).
  assert (IF : forall c, In c (firstn q s) -> c <> NL) by (intros c Hc ->; apply E3; rewrite FQ; apply in_or_app; left; exact Hc).
  exists (rev b), (rev a), r. rewrite FQ, FB in E1. rewrite <- !app_assoc in E1. split; [exact E1|]. split; [lia|]. split; [rewrite !app_length, rev_length; cbn [length]; rewrite rev_length in *; lia|].
  split; [intros c Hc; apply S3, in_rev; exact Hc|]. split; [|split].
  - intros Q. apply (IF NL); [rewrite FB; apply in_or_app; left; exact Q|reflexivity].
  - intros Q. apply (IF NL); [rewrite FB; apply in_or_app; right; exact Q|reflexivity].
  - intros x c Hx. apply (S4 c (rev x)). rewrite <- (rev_involutive b), Hx, rev_app_distr. reflexivity.
Qed.
Lemma nextline_none : forall s, nextline s = None -> ~ continued s.
Proof.
  intros s H (a & b & -> & N). unfold nextline in H.
  replace (a ++ BSL :: NL :: b) with ((a ++ [BSL]) ++ NL :: b) in H by (rewrite <- app_assoc; reflexivity).
  rewrite memchr_here in H by (rewrite in_app_iff; intros [Q|[Q|[]]]; [contradiction|discriminate]).
  rewrite app_length, Nat.add_comm in H. cbn [length Nat.add] in H. rewrite <- app_assoc, app_nth2, Nat.sub_diag in H by lia. cbn [app nth] in H. discriminate.
Qed.
Lemma firstn_pre : forall (a b : bytes), firstn (length a) (a ++ b) = a.
Proof. intros. rewrite firstn_app, firstn_all, Nat.sub_diag. apply app_nil_r. Qed.
Lemma skipn_pre : forall (a b : bytes), skipn (length a) (a ++ b) = b.
Proof. intros. rewrite skipn_app, skipn_all, Nat.sub_diag. reflexivity. Qed.
Lemma bodies_spec : forall fuel s ls r, bodies fuel s = (ls, r) -> length s <= fuel -> exists ks, s = concat (List.map src ks) ++ r /\ List.map k_body ks = ls /\ Forall cont_ok ks /\ ~ continued r /\ (forall k, In k ks -> k_pad k = []).
Proof.
  induction fuel as [|fuel IH]; intros s ls r H L; cbn [bodies] in H.
  - inversion H; subst. exists []. split; [reflexivity|]. split; [reflexivity|]. split; [constructor|]. split; [|intros k []]. intros (a & b & E & _). destruct r; [destruct a; discriminate|cbn in L; lia].
  - destruct (nextline s) as [[e nx]|] eqn:E.
    + destruct (nextline_some s e nx E) as (body & ws & t & S1 & S2 & S3 & S4 & S5 & S6 & S7). destruct (bodies fuel (skipn nx s)) as [l r'] eqn:EB. inversion H; subst ls r'. clear H.
      assert (SK : skipn nx s = t). { subst nx s. replace (body ++ ws ++ [BSL; NL] ++ t) with ((body ++ ws ++ [BSL; NL]) ++ t) by (rewrite <- !app_assoc; reflexivity). apply skipn_pre. }
      rewrite SK in EB. destruct (IH t l r EB) as (ks & K1 & K2 & K3 & K4 & K5). { subst s. rewrite !app_length in L. cbn [length] in L. lia. }
      exists (Cont body ws [] :: ks). cbn [List.map concat k_body]. split; [|split; [|split; [|split; [exact K4|intros k [<-|Hk]; [reflexivity|auto]]]]].
      * rewrite <- app_assoc, <- K1, S1. unfold src. cbn [k_body k_ws]. rewrite <- !app_assoc. reflexivity.
      * f_equal; [|exact K2]. subst s e. symmetry. apply firstn_pre.
      * constructor; [|exact K3]. unfold cont_ok. cbn [k_ws k_pad k_body]. repeat split; auto. intros c [].
    + inversion H; subst. exists []. split; [reflexivity|]. split; [reflexivity|]. split; [constructor|]. split; [|intros k []]. apply nextline_none. exact E.
Qed.

(** ** Printing. *)
Section Print.
Variable limit : nat.
Variable usetabs : bool.
Notation exec1 := (doc_exec1 limit usetabs).
Record at_ (r : bytes) (c : nat) (st : dstate) : Prop := {
  at_rev : o_rev st = r; at_col : o_col st = c; at_nl : o_newline st = false; at_mute : o_mute st = 0%Z; at_parens : o_parens st = 0; at_cur : o_cur st = 0;
  at_lines : o_nlines st < 2; at_max : o_maxlines st = 2; at_bad : o_bad st = false
}.
Lemma exec_literal : forall s r c st, s <> [NL] -> at_ r c st -> at_ (rev s ++ r) (strwidth s c) (exec1 (Literal s) st).
Proof.
  intros s r c st N [A1 A2 A3 A4 A5 A6 A7 A8 A9]. cbn [doc_exec1]. unfold doc_print. assert (IN : is_newline s = false) by (unfold is_newline; destruct (beq s [NL]) eqn:E; [apply beq_eq in E; contradiction|reflexivity]).
  unfold is_mute. rewrite A4. rewrite IN. cbn [andb negb Z.eqb]. rewrite A3. cbn [fst]. unfold print_now. rewrite IN. constructor; cbn [doc_column put set_rev set_nlines set_sexceeds set_col o_rev o_col o_newline o_mute o_parens o_cur o_nlines o_maxlines o_bad]; auto; try lia; [rewrite rev_append_rev, A1; reflexivity|try (rewrite A2; reflexivity)..].
Qed.
Lemma at_indent1 : forall n t r c st, at_ r c st -> exists w, Forall tb w /\ at_ (rev w ++ r) (display_col w c) (print_indent1 n t st).
Proof.
  intros n t r c st [A1 A2 A3 A4 A5 A6 A7 A8 A9]. unfold print_indent1. rewrite A2. destruct (strindent n t c) as [o p] eqn:E. apply strindent_spec in E. destruct E as (E1 & E2 & _).
  exists o. split; [eapply Forall_impl; [|exact E2]; unfold tb; tauto|]. constructor; cbn [put set_col set_rev o_rev o_col o_newline o_mute o_parens o_cur o_nlines o_maxlines o_bad]; auto. rewrite rev_append_rev, A1. reflexivity.
Qed.
Lemma at_tabs : forall fuel n r c st, at_ r c st -> exists w, Forall tb w /\ at_ (rev w ++ r) (display_col w c) (align_tabs fuel n st).
Proof.
  induction fuel as [|fuel IH]; intros [|n] r c st A; cbn [align_tabs]; try (exists []; split; [constructor|exact A]).
  destruct (at_indent1 8 true r c st A) as (w & W1 & W2). destruct (IH (S n - (o_col (print_indent1 8 true st) - o_col st)) _ _ _ W2) as (w' & V1 & V2). exists (w ++ w'). split; [apply Forall_app; auto|]. rewrite rev_app_distr, <- app_assoc, display_col_app. exact V2.
Qed.
Lemma exec_align_doc : forall a r c st, at_ r c st -> exists w, Forall tb w /\ at_ (rev w ++ r) (display_col w c) (exec1 (pad_doc a) st).
Proof.
  intros [i s t] r c st A. cbn [pad_doc doc_exec1 a_indent a_spaces a_tabs]. unfold exec_align. destruct t; [|apply at_indent1; exact A].
  destruct (at_tabs i i r c st A) as (w & W1 & W2). destruct (at_indent1 s false _ _ _ W2) as (w' & V1 & V2). exists (w ++ w'). split; [apply Forall_app; auto|]. rewrite rev_app_distr, <- app_assoc, display_col_app. exact V2.
Qed.
Lemma pad_one : forall a, (forall c st, end_col a c st = c + 1) -> forall r c st w c', at_ r c st -> at_ (rev w ++ r) c' (exec1 (pad_doc a) st) -> w = [SP].
Proof.
  intros [i s t] H r c st w c' A B. pose proof (at_rev _ _ _ B) as R. clear B. specialize (H 0 st). rewrite end_col_eq in H. cbn [a_indent a_spaces a_tabs pad_doc doc_exec1 Nat.add] in *. unfold exec_align in R.
  assert (ONE : o_rev (print_indent1 1 false st) = [SP] ++ r) by (unfold print_indent1, strindent; cbn; rewrite (at_rev _ _ _ A); reflexivity).
  assert (E : rev w ++ r = [SP] ++ r).
  { rewrite <- R, <- ONE. destruct t.
    - destruct (Nat.eqb_spec i 0) as [->|N]; [cbn in H; rewrite H; reflexivity|]. exfalso. destruct (up8_spec i) as [U1 U2]. assert (up8 i = 1) as Q by lia. rewrite Q in U2. discriminate.
    - rewrite H. reflexivity. }
  apply app_inv_tail in E. apply (f_equal (@rev _)) in E. rewrite rev_involutive in E. exact E.
Qed.
Lemma exec_newline : forall r c st, at_ (BSL :: r) c st -> o_nlines st = 0 -> at_ (NL :: BSL :: r) 0 (exec1 Hardline st).
Proof.
  intros r c st [A1 A2 A3 A4 A5 A6 A7 A8 A9] N. cbn [doc_exec1]. unfold doc_print. change (is_newline [NL]) with true. unfold is_mute. rewrite A4. cbn [Z.eqb negb andb]. rewrite A3. cbn [fst]. unfold print_now. change (is_newline [NL]) with true. cbv iota. rewrite A8, N. cbn [Nat.leb].
  set (st2 := if negb false && _ then _ else _).
  assert (H2 : at_ (BSL :: r) c st2 /\ o_nlines st2 = 1) by (unfold st2; destruct (negb false && _); split; try constructor; cbn [set_optline set_slines set_nlines o_rev o_col o_newline o_mute o_parens o_cur o_nlines o_maxlines o_bad]; auto; lia). clearbody st2.
  destruct H2 as [[B1 B2 B3 B4 B5 B6 B7 B8 B9] BN].
  assert (TR : trim_spaces st2 = set_col c (set_rev (BSL :: r) st2)) by (unfold trim_spaces; rewrite B1, B2; reflexivity). rewrite TR. set (st4 := match o_mforce _ with Some _ => _ | None => _ end).
  assert (H4 : at_ (BSL :: r) c st4 /\ o_nlines st4 = 1) by (unfold st4; destruct (o_mforce _); split; try constructor; cbn [set_idx set_col set_rev o_rev o_col o_newline o_mute o_parens o_cur o_nlines o_maxlines o_bad]; auto). clearbody st4. clear TR B1 B2 B3 B4 B5 B6 B7 B8 B9 BN.
  destruct H4 as [[B1 B2 B3 B4 B5 B6 B7 B8 B9] BN]. unfold print_indent. cbn [doc_column put set_rev set_col set_sexceeds o_parens o_cur]. rewrite B5, B6. cbn [Nat.ltb Nat.leb]. unfold print_indent1, strindent.
  assert (Z : (if usetabs then strindent_tabs 0 0 0 (strwidth [NL] (o_col st4)) else ([], 0, strwidth [NL] (o_col st4))) = ([], 0, 0)).
  { assert (SW : strwidth [NL] (o_col st4) = 0) by (rewrite strwidth_spec; reflexivity). rewrite SW. destruct usetabs; reflexivity. }
  change (o_col (set_pre 0 (doc_column limit [NL] (put [NL] st4)))) with (strwidth [NL] (o_col st4)). rewrite Z. constructor; cbn; auto; try lia. rewrite B1. reflexivity.
Qed.
Lemma exec_concat : forall a l st, exec1 (Concat (a :: l)) st = exec1 (Concat l) (exec1 a st).
Proof. reflexivity. Qed.
Lemma exec_app : forall a l st, exec1 (Concat (a ++ l)) st = exec1 (Concat l) (exec1 (Concat a) st).
Proof. intros a l st. cbn [doc_exec1]. rewrite fold_left_app. reflexivity. Qed.
Lemma lit_lines : forall s st, o_newline st = false -> s <> [NL] -> o_nlines (exec1 (Literal s) st) = 0.
Proof.
  intros s st A3 N. assert (IN : is_newline s = false) by (unfold is_newline; destruct (beq s [NL]) eqn:E; [apply beq_eq in E; contradiction|reflexivity]).
  cbn [doc_exec1]. unfold doc_print. rewrite IN. cbn [andb]. rewrite A3. cbn [fst]. unfold print_now. rewrite IN. destruct (is_mute st); reflexivity.
Qed.

Definition is_pad (d : doc) : Prop := d = Literal [SP] \/ exists a, d = pad_doc a.
Lemma cstr_id : forall s, ~ In NUL s -> cstr s = s.
Proof. induction s as [|c s IH]; intros H; [reflexivity|]. cbn [cstr]. destruct (Ascii.eqb_spec c NUL) as [->|]; [exfalso; apply H; left; reflexivity|]. f_equal. apply IH. intros Q. apply H. right. exact Q. Qed.
(** One line; [w] is the padding. *)
Lemma line_run : forall s p r st, ~ In NUL s -> ~ In NL s -> is_pad p -> at_ r 0 st -> exists w, Forall tb w /\ at_ (rev (s ++ w ++ [BSL; NL]) ++ r) 0 (exec1 (Concat (body_docs s ++ [p; Literal [BSL]; Hardline])) st) /\
  exists st', at_ (rev s ++ r) (strwidth s 0) st' /\ at_ (rev w ++ rev s ++ r) (display_col w (strwidth s 0)) (exec1 p st').
Proof.
  intros s p r st N1 N2 P A. rewrite exec_app. set (st1 := exec1 (Concat (body_docs s)) st).
  assert (A1 : at_ (rev s ++ r) (strwidth s 0) st1).
  { unfold st1, body_docs. destruct s as [|c s]; [cbn [doc_exec1 fold_left]; exact A|]. rewrite exec_concat. cbn [doc_exec1 fold_left]. rewrite cstr_id by exact N1. apply exec_literal; [|exact A]. intros E. inversion E; subst. apply N2. left. reflexivity. }
  clearbody st1. rewrite exec_concat.
  assert (W : exists w, Forall tb w /\ at_ (rev w ++ rev s ++ r) (display_col w (strwidth s 0)) (exec1 p st1)).
  { destruct P as [->|(a & ->)]; [|apply exec_align_doc; exact A1]. exists [SP]. split; [repeat constructor|]. rewrite <- strwidth_spec. apply exec_literal; [discriminate|exact A1]. }
  destruct W as (w & W1 & W2). exists w. split; [exact W1|]. split; [|exists st1; auto]. rewrite exec_concat. 
  assert (A3 : at_ (BSL :: rev w ++ rev s ++ r) (strwidth [BSL] (display_col w (strwidth s 0))) (exec1 (Literal [BSL]) (exec1 p st1))) by (apply (exec_literal [BSL]); [discriminate|exact W2]).
  pose proof (lit_lines [BSL] (exec1 p st1) (at_nl _ _ _ W2) ltac:(discriminate)) as L0.
  apply exec_newline in A3; [|exact L0]. rewrite exec_concat. cbn [doc_exec1 fold_left]. replace (rev (s ++ w ++ [BSL; NL]) ++ r) with (NL :: BSL :: rev w ++ rev s ++ r); [exact A3|]. rewrite !rev_app_distr. cbn [rev app]. rewrite <- app_assoc. reflexivity.
Qed.
Lemma lines_run : forall ks pads r st, length pads = length ks -> (forall k, In k ks -> ~ In NUL (k_body k) /\ ~ In NL (k_body k)) -> Forall is_pad pads -> at_ r 0 st ->
  exists ws, length ws = length ks /\ Forall (Forall tb) ws /\ 
  at_ (rev (concat (List.map (fun kw => k_body (fst kw) ++ snd kw ++ [BSL; NL]) (combine ks ws))) ++ r) 0 (exec1 (Concat (line_docs (List.map k_body ks) pads)) st) /\
  Forall2 (fun p kw => exists r' st', at_ r' (strwidth (k_body (fst kw)) 0) st' /\ at_ (rev (snd kw) ++ r') (display_col (snd kw) (strwidth (k_body (fst kw)) 0)) (exec1 p st')) pads (combine ks ws).
Proof.
  induction ks as [|k ks IH]; intros pads r st L H P A; destruct pads as [|p pads]; try discriminate.
  - exists []. cbn. auto.
  - cbn [List.map line_docs]. rewrite exec_concat. destruct (H k (or_introl eq_refl)) as [H1 H2]. inversion P as [|? ? P1 P2]; subst.
    destruct (line_run (k_body k) p r st H1 H2 P1 A) as (w & W1 & W2 & st' & W3 & W4). cbn [length] in L.
    destruct (IH pads _ _ ltac:(lia) (fun k' Hk => H k' (or_intror Hk)) P2 W2) as (ws & V1 & V2 & V3 & V4). exists (w :: ws). split; [cbn; lia|]. split; [constructor; auto|]. cbn [combine List.map concat fst snd]. split; [|constructor; [cbn [fst snd]; eauto|exact V4]].
    rewrite rev_app_distr, <- app_assoc. exact V3.
Qed.
Lemma rest_run : forall s r st, ~ In NUL s -> (r = [] \/ exists r', r = NL :: r') -> at_ r 0 st -> o_rev (exec1 (Concat ([Concat []] ++ match s with [] => [] | _ => [Literal (cstr s)] end)) st) = rev s ++ r /\
  o_bad (exec1 (Concat ([Concat []] ++ match s with [] => [] | _ => [Literal (cstr s)] end)) st) = false.
Proof.
  intros s r st N R A. destruct s as [|c s]; [cbn [app doc_exec1 fold_left]; split; apply A|]. rewrite cstr_id by exact N. cbn [app]. rewrite !exec_concat. set (l := c :: s) in *. change (exec1 (Concat []) ?x) with x.
  destruct (list_eq_dec Ascii.ascii_dec l [NL]) as [E|NE]; [|destruct (exec_literal l r 0 st NE A) as [B1 B2 B3 B4 B5 B6 B7 B8 B9]; auto].
  rewrite E. cbn [doc_exec1 fold_left]. destruct A as [A1 A2 A3 A4 A5 A6 A7 A8 A9]. cbn [doc_exec1]. unfold doc_print. change (is_newline [NL]) with true. unfold is_mute. rewrite A4. cbn [Z.eqb negb andb]. rewrite A3. cbn [fst]. unfold print_now. change (is_newline [NL]) with true. cbv iota. rewrite A8.
  destruct (Nat.leb_spec 2 (o_nlines st)) as [Q|Q]; [lia|].
  set (st2 := if negb false && _ then _ else _).
  assert (H2 : o_rev st2 = r /\ o_col st2 = 0 /\ o_parens st2 = 0 /\ o_cur st2 = 0 /\ o_bad st2 = false) by (unfold st2; destruct (negb false && _); cbn [set_optline set_slines set_nlines o_rev o_col o_parens o_cur o_bad]; auto). clearbody st2. destruct H2 as (B1 & B2 & B3 & B4 & B5).
  assert (TR : trim_spaces st2 = set_col 0 (set_rev r st2)). { unfold trim_spaces. rewrite B1, B2. destruct R as [->|(r' & ->)]; reflexivity. } rewrite TR. set (st4 := match o_mforce _ with Some _ => _ | None => _ end).
  assert (H4 : o_rev st4 = r /\ o_col st4 = 0 /\ o_parens st4 = 0 /\ o_cur st4 = 0 /\ o_bad st4 = false) by (unfold st4; destruct (o_mforce _); cbn [set_idx set_col set_rev o_rev o_col o_parens o_cur o_bad]; auto). clearbody st4. clear TR B1 B2 B3 B4 B5. destruct H4 as (B1 & B2 & B3 & B4 & B5).
  unfold print_indent. cbn [doc_column put set_rev set_col set_sexceeds o_parens o_cur]. rewrite B3, B4. cbn [Nat.ltb Nat.leb]. unfold print_indent1, strindent.
  assert (Z : (if usetabs then strindent_tabs 0 0 0 (strwidth [NL] (o_col st4)) else ([], 0, strwidth [NL] (o_col st4))) = ([], 0, 0)).
  { assert (SW : strwidth [NL] (o_col st4) = 0) by (rewrite strwidth_spec; reflexivity). rewrite SW. destruct usetabs; reflexivity. }
  change (o_col (set_pre 0 (doc_column limit [NL] (put [NL] st4)))) with (strwidth [NL] (o_col st4)). rewrite Z. cbn. rewrite B1, B5. auto.
Qed.
End Print.

(** ** The ruler. *)
Section Main.
Variable mode : amode.
Variables limit indentw : nat.
Variable usetabs : bool.
Variable tk : rtok.
Notation align := (cpp_align mode limit indentw usetabs tk).
Notation bw := (body_width limit usetabs).

Lemma insert_run : forall ls rl, insert_all limit usetabs tk ls rl = run (List.map (fun s => Insert tk 1 (bw s) 0) ls) rl.
Proof. induction ls as [|s ls IH]; intros rl; [reflexivity|]. cbn [insert_all List.map run]. destruct (ruler_insert rl tk 1 (bw s) 0); auto. Qed.
Definition inserts (ls : list bytes) : list op := List.map (fun s => Insert tk 1 (bw s) 0) ls.
Lemma inserts_order : forall ls n, in_order n (inserts ls).
Proof. induction ls as [|s ls IH]; intros n; cbn; auto. split; [lia|apply IH]. Qed.
Lemma inserts_noind : forall ls, no_indents (inserts ls).
Proof. intros ls s H. unfold inserts in H. apply in_map_iff in H. destruct H as (x & H & _). discriminate. Qed.
Lemma inserts_cols : forall ls, ls <> [] -> ncols (inserts ls) = 1.
Proof.
  assert (U : forall ls, ncols (inserts ls) <= 1) by (induction ls as [|s ls IH]; [cbn; lia|]; cbn [inserts List.map ncols]; unfold inserts in IH; lia).
  intros [|s ls] H; [exfalso; apply H; reflexivity|]. specialize (U ls). cbn [inserts List.map ncols]. unfold inserts in U. lia.
Qed.
Lemma inserts_entries : forall ls, entries 1 (inserts ls) = List.map (fun s => (bw s, 0)) ls.
Proof. induction ls as [|s ls IH]; [reflexivity|]. change (entries 1 (inserts (s :: ls))) with ((bw s, 0) :: entries 1 (inserts ls)). rewrite IH. reflexivity. Qed.

(** What a ruler of each kind gives. *)
Definition pads_ok (a : alignment) (ls : list bytes) (as_ : list RulerModel.align) : Prop :=
  length as_ = length ls /\
  match g_mode a with
  | DontAlign => forall p c st, In p as_ -> end_col p c st = c + 1
  | Left => exists target, forall i s p, nth_error ls i = Some s -> nth_error as_ i = Some p -> forall st, end_col p (bw s) st = target /\ bw s < target
  | Right => forall i s p, nth_error ls i = Some s -> nth_error as_ i = Some p -> forall st,
      if g_width a <? bw s then end_col p (bw s) st = bw s
      else g_tabs a = false \/ g_width a mod 8 = 0 -> end_col p (bw s) st = g_width a
  | OtherMode => False
  end.
Lemma one_col : forall A (als : list (list A)), length als = 1 -> exists x, als = [x].
Proof. intros A [|x [|? ?]] H; try discriminate. eauto. Qed.
Lemma ruler_pads : forall a rl ls, ruler_for a = Some rl -> ls <> [] ->
  exists rl' as_, run (inserts ls) rl = Some rl' /\ ruler_exec rl' = Some ([as_], []) /\ pads_ok a ls as_.
Proof.
  intros a rl ls H NE. unfold ruler_for in H. pose proof (inserts_order ls 0) as IO. pose proof (inserts_noind ls) as NI. pose proof (inserts_cols ls NE) as NC. unfold pads_ok.
  destruct (g_mode a); inversion H; subst rl; clear H.
  - destruct (C30_fixed (RFlags false false true false false) 1 (inserts ls) eq_refl eq_refl eq_refl IO NI) as (rl' & als & R1 & R2 & R3 & R4). rewrite NC in *. destruct (one_col _ _ R3) as (as_ & ->). destruct (R4 1 ltac:(lia)) as (x & X1 & X2 & X3). inversion X1; subst x. exists rl', as_. split; [exact R1|]. split; [exact R2|]. split; [rewrite X2, inserts_entries, map_length; reflexivity|].
    intros p c st Hp. apply X3. exact Hp.
  - assert (G : exists rl' als ins, run (inserts ls) (ruler_init 0 (if g_tabs a then RFlags false false false true false else RFlags true false false false false)) = Some rl' /\ ruler_exec rl' = Some (als, ins) /\ length als = 1 /\ ins = [] /\
      exists as_, nth_error als 0 = Some as_ /\ length as_ = length ls /\ exists target, forall i len nsp p, nth_error (entries 1 (inserts ls)) i = Some (len, nsp) -> nth_error as_ i = Some p -> forall base st, base mod 8 = 0 -> end_col p (base + len) st + nsp = base + target /\ base + len < end_col p (base + len) st).
    { set (f := if g_tabs a then _ else _). destruct (C30_aligned f 0 (inserts ls)) as (rl' & als & ins & R1 & R2 & R3 & R4 & R5 & _).
      - unfold f. destruct (g_tabs a); split; reflexivity.
      - unfold f. destruct (g_tabs a); reflexivity.
      - constructor; auto. intros Q. unfold f in Q. destruct (g_tabs a); discriminate.
      - rewrite NC in *. exists rl', als, ins. split; [exact R1|]. split; [exact R2|]. split; [exact R3|]. split.
        + assert (M0 : forall l k acc, marks k acc (inserts l) = acc) by (induction l as [|x l IH]; intros k acc; [reflexivity|]; cbn [inserts List.map marks]; apply IH). rewrite M0 in R5. destruct ins; [reflexivity|discriminate].
        + destruct (R4 1 ltac:(lia)) as (as_ & X1 & X2 & X3). exists as_. split; [exact X1|]. split; [rewrite X2, inserts_entries, map_length; reflexivity|]. destruct X3 as [[X3 _]|X3]; [unfold f in X3; destruct (g_tabs a); discriminate|exact X3]. }
    destruct G as (rl' & als & ins & R1 & R2 & R3 & -> & as_ & X1 & X2 & target & X3). destruct (one_col _ _ R3) as (x & ->). inversion X1; subst x. exists rl', as_. split; [exact R1|]. split; [exact R2|]. split; [exact X2|].
    exists target. intros i s p H1 H2 st. destruct (X3 i (bw s) 0 p) with (base := 0) (st := st) as [Y1 Y2]; auto; [rewrite inserts_entries, nth_error_map, H1; reflexivity|]. cbn [Nat.add] in *. lia.
  - destruct (C30_bounded (RFlags false true false (g_tabs a) false) (g_width a) (inserts ls) eq_refl eq_refl eq_refl IO NI) as (rl' & als & R1 & R2 & R3 & R4). rewrite NC in *. destruct (one_col _ _ R3) as (as_ & ->). destruct (R4 1 ltac:(lia)) as (x & X1 & X2 & nm & XN & X3). inversion X1; subst x. exists rl', as_. split; [exact R1|]. split; [exact R2|]. split; [rewrite X2, inserts_entries, map_length; reflexivity|].
    assert (nm = 0) as ->. { destruct XN as [->|(len & XN)]; [reflexivity|]. rewrite inserts_entries in XN. apply in_map_iff in XN. destruct XN as (x & XN & _). congruence. }
    intros i s p H1 H2 st. pose proof (X3 i (bw s) 0 p) as X. rewrite inserts_entries, nth_error_map, H1 in X. specialize (X eq_refl H2 0 st eq_refl). cbn [Nat.add] in X. destruct (g_width a <? bw s); [exact X|].
    cbn [f_tabs] in X. destruct X as (_ & X4 & X5). intros Q. destruct (g_tabs a) eqn:ET.
    + destruct Q as [Q|Q]; [discriminate|]. specialize (X5 eq_refl (or_introl Q)). rewrite (up8_unique (g_width a) (g_width a)) in X5 by (auto; lia).
      lia.
    + specialize (X4 eq_refl). lia.
Qed.
Lemma start_at : at_ [] 0 (doc_state_init [] BREAK).
Proof. constructor; try reflexivity. cbn. lia. Qed.
Lemma start_munge : at_ [] 0 (doc_state_init [] MUNGE).
Proof. constructor; try reflexivity. cbn. lia. Qed.
Lemma width_of : forall s, ~ In NUL s -> ~ In NL s -> bw s = display_col s 0.
Proof.
  intros s N1 N2. unfold body_width, doc_width, body_docs. destruct s as [|c s]; [reflexivity|]. rewrite cstr_id by exact N1. rewrite <- strwidth_spec.
  refine (at_col _ _ _ (exec_literal limit usetabs (c :: s) [] 0 _ _ start_munge)). intros E. inversion E; subst. apply N2. left. reflexivity.
Qed.

(** The column of the backslash after alignment, and that of the end of the text. *)
Definition bsl (k : cont) : nat := display_col (k_body k ++ k_pad k) 0.
Definition text_end (k : cont) : nat := display_col (k_body k) 0.
Definition lined_up (a : alignment) (ks : list cont) : Prop :=
  match g_mode a with
  | DontAlign => forall k, In k ks -> bsl k = text_end k + 1 /\ k_pad k = [SP]
  | Left => exists target, forall k, In k ks -> bsl k = target /\ text_end k < target
  | Right => forall k, In k ks -> if g_width a <? text_end k then bsl k = text_end k else g_tabs a = false \/ g_width a mod 8 = 0 -> bsl k = g_width a
  | OtherMode => False
  end.
Lemma skip_ok : forall s, g_skip (alignment_of mode limit indentw usetabs s) = true -> g_mode (alignment_of mode limit indentw usetabs s) = Right.
Proof.
  intros s. unfold alignment_of. destruct (sense_alignment limit s) as [a|] eqn:E; [|discriminate]. unfold sense_alignment in E. destruct (sense_lines limit 3 s) as [l|]; [|discriminate].
  destruct (forallb not_aligned l); [inversion E; subst; discriminate|]. destruct (_ && _); [|discriminate]. inversion E; subst. reflexivity.
Qed.
Lemma set_col_id : forall st, set_col (o_col st) st = st.
Proof. intros []. reflexivity. Qed.
Lemma in_src : forall ks k c, In k ks -> In c (k_body k) -> In c (concat (List.map src ks)).
Proof. intros ks k c H1 H2. apply in_concat. exists (src k). split; [apply in_map; exact H1|]. unfold src. apply in_or_app. left. exact H2. Qed.
Lemma src_two : forall ks, length (concat (List.map src ks)) >= 2 * length ks.
Proof. induction ks as [|k ks IH]; cbn [List.map concat length]; [lia|]. rewrite app_length. unfold src at 1. rewrite !app_length. cbn [length]. lia. Qed.
Definition with_pad (kw : cont * bytes) : cont := Cont (k_body (fst kw)) (k_ws (fst kw)) (snd kw).

Lemma last_dst : forall l x, last (List.map dst (l ++ [x])) [] = dst x.
Proof. intros l x. rewrite map_app. cbn [List.map]. apply last_last. Qed.
Lemma align_spec : forall s, ~ In NUL s ->
  exists ks rest, s = concat (List.map src ks) ++ rest /\ Forall cont_ok ks /\ ~ continued rest /\
  match align s with
  | CBad => False
  | CNull => mode = OtherMode \/ length ks <= 1
  | COut out => 2 <= length ks /\ out = concat (List.map dst ks) ++ rest /\
      let a := alignment_of mode limit indentw usetabs s in
      if g_skip a then exists k r, ks = k :: r /\ k_pad k = [SP] /\ lined_up a r else lined_up a ks
  end.
Proof.
  intros s NS. unfold cpp_align. destruct (bodies (length s) s) as [ls rest] eqn:EB. destruct (bodies_spec _ _ _ _ EB (le_n _)) as (ks & K1 & K2 & K3 & K4 & K5).
  destruct (nextline s) as [nl|] eqn:EN.
  2: { exists [], s. split; [reflexivity|]. split; [constructor|]. split; [apply nextline_none; exact EN|]. right. cbn. lia. }
  set (a := alignment_of mode limit indentw usetabs s). destruct (ruler_for a) as [rl|] eqn:ER.
  2: { exists ks, rest. split; [exact K1|]. split; [exact K3|]. split; [exact K4|]. left. unfold ruler_for in ER. destruct (g_mode a) eqn:EM; try discriminate. clear - EM. unfold a, alignment_of in EM. destruct (sense_alignment limit s) as [x|] eqn:E; [|exact EM]. exfalso. unfold sense_alignment in E. destruct (sense_lines limit 3 s) as [l|]; [|discriminate].
       destruct (forallb not_aligned l); [inversion E; subst; discriminate|]. destruct (_ && _); [|discriminate]. inversion E; subst. discriminate. }
  set (skip := if g_skip a then 1 else 0).
  assert (LK : length ls = length ks) by (rewrite <- K2, map_length; reflexivity).
  assert (HN : forall k, In k ks -> ~ In NUL (k_body k) /\ ~ In NL (k_body k)).
  { intros k Hk. split; [|exact (proj1 (proj2 (proj2 (proj1 (Forall_forall _ _) K3 k Hk))))]. intros Q. apply NS. rewrite K1. apply in_or_app. left. eapply in_src; eauto. }
  rewrite insert_run. fold (inserts (skipn skip ls)).
  destruct (Nat.leb_spec (length ls) 1) as [L|L].
  { exists ks, rest. destruct (run_inv (inserts (skipn skip ls)) [] rl) as (rl' & R1 & _); [unfold ruler_for in ER; destruct (g_mode a); inversion ER; apply init_inv|apply inserts_order|]. rewrite R1. repeat split; auto. right. lia. }
  assert (NE : skipn skip ls <> []). { intros Q. apply (f_equal (@length _)) in Q. rewrite skipn_length in Q. cbn in Q. unfold skip in Q. destruct (g_skip a); lia. }
  destruct (ruler_pads a rl _ ER NE) as (rl' & as_ & R1 & R2 & P1 & P2). rewrite R1, R2.
  set (pads := repeat (Literal [SP]) skip ++ List.map pad_doc as_).
  assert (PL : length pads = length ks). { unfold pads. rewrite app_length, repeat_length, map_length, P1, skipn_length. unfold skip. destruct (g_skip a); lia. }
  assert (PI : Forall is_pad pads). { unfold pads. apply Forall_app. split; [apply Forall_forall; intros x Hx; left; exact (repeat_spec _ _ _ Hx)|]. apply Forall_forall. intros x Hx. apply in_map_iff in Hx. destruct Hx as (p & <- & _). right. eauto. }
  destruct (lines_run limit usetabs ks pads [] _ PL HN PI start_at) as (ws & W1 & W2 & W3 & W4). rewrite K2 in W3. rewrite app_nil_r in W3.
  set (body := concat _) in W3.
  assert (BD : body = concat (List.map dst (List.map with_pad (combine ks ws)))) by (unfold body; f_equal; rewrite map_map; reflexivity).
  assert (NZ : List.map with_pad (combine ks ws) <> []). { intros Q. apply (f_equal (@length _)) in Q. rewrite map_length, combine_length in Q. cbn in Q. lia. }
  assert (BE : rev body = [] \/ exists r', rev body = NL :: r').
  { right. destruct (exists_last NZ) as (l & x & E). rewrite BD, E, map_app, concat_app. cbn [List.map concat]. rewrite app_nil_r. unfold dst at 2. exists (rev (concat (List.map dst l) ++ k_body x ++ k_pad x ++ [BSL])). replace (concat (List.map dst l) ++ k_body x ++ k_pad x ++ [BSL; NL]) with ((concat (List.map dst l) ++ k_body x ++ k_pad x ++ [BSL]) ++ [NL]) by (rewrite <- !app_assoc; reflexivity). rewrite rev_app_distr. reflexivity. }
  assert (NR : ~ In NUL rest) by (intros Q; apply NS; rewrite K1; apply in_or_app; right; exact Q).
  destruct (rest_run limit usetabs rest _ _ NR BE W3) as [F1 F2].
  unfold doc_exec. rewrite exec_app. rewrite F1, F2. rewrite rev_app_distr, !rev_involutive.
  exists (List.map with_pad (combine ks ws)), rest.
  assert (LC : forall A B (l : list A) (m : list B), length m = length l -> List.map fst (combine l m) = l) by (induction l; intros [|? ?] Q; try discriminate; cbn; [reflexivity|f_equal; apply IHl; inversion Q; auto]).
  split. { rewrite map_map. replace (List.map (fun x => src (with_pad x)) (combine ks ws)) with (List.map src ks); [exact K1|]. rewrite <- (LC _ _ ks ws W1) at 1. rewrite map_map. reflexivity. }
  split. { apply Forall_forall. intros x Hx. apply in_map_iff in Hx. destruct Hx as ([k w] & <- & Hx). pose proof (in_combine_l _ _ _ _ Hx) as Hk. pose proof (in_combine_r _ _ _ _ Hx) as Hw. destruct (proj1 (Forall_forall _ _) K3 k Hk) as (C1 & C2 & C3 & C4 & C5). unfold cont_ok, with_pad. cbn [fst snd k_body k_ws k_pad]. repeat split; auto.
    pose proof (proj1 (Forall_forall _ _) W2 w Hw) as T. intros c Hc. pose proof (proj1 (Forall_forall _ _) T c Hc) as T'. unfold tb in T'. tauto. }
  split; [exact K4|]. rewrite map_length, combine_length, W1, Nat.min_id. split; [lia|]. split; [rewrite BD; reflexivity|]. cbn zeta. fold a.
  (* columns *)
  assert (COL : forall i k w p, nth_error ks i = Some k -> nth_error ws i = Some w -> nth_error as_ (i - skip) = Some p -> skip <= i -> exists st, bsl (with_pad (k, w)) = end_col p (bw (k_body k)) st /\ text_end (with_pad (k, w)) = bw (k_body k) /\ nth_error (skipn skip ls) (i - skip) = Some (k_body k) /\ ((forall c st, end_col p c st = c + 1) -> w = [SP])).
  { intros i k w p I1 I2 I3 I4. assert (IC : nth_error (combine ks ws) i = Some (k, w)). { clear - I1 I2. revert ws i I1 I2. induction ks as [|x l IH]; intros [|y m] [|i] I1 I2; try discriminate; cbn in *; [congruence|auto]. }
    assert (IP : nth_error pads i = Some (pad_doc p)). { unfold pads. rewrite nth_error_app2; rewrite repeat_length; [|exact I4]. rewrite nth_error_map, I3. reflexivity. }
    assert (F2N : forall A B (R : A -> B -> Prop) l m, Forall2 R l m -> forall i x y, nth_error l i = Some x -> nth_error m i = Some y -> R x y) by (induction 1; intros [|j] ? ? ? ?; try discriminate; cbn in *; [congruence|eauto]).
    destruct (F2N _ _ _ _ _ W4 i _ _ IP IC) as (r' & st' & T1 & T2). cbn [fst snd] in T1, T2. exists st'. destruct (HN k (nth_error_In _ _ I1)) as [H1 H2]. rewrite (width_of _ H1 H2).
    unfold bsl, text_end, with_pad. cbn [k_body k_pad fst snd]. split; [|split; [reflexivity|split; [|intros ONE; exact (pad_one limit usetabs p ONE _ _ _ _ _ T1 T2)]]].
    - rewrite display_col_app. rewrite strwidth_spec in T1, T2. rewrite <- (at_col _ _ _ T2). unfold end_col. rewrite <- (at_col _ _ _ T1) at 1. rewrite set_col_id. reflexivity.
    - rewrite <- K2. assert (SN : forall A (l : list A) n m, nth_error (skipn n l) m = nth_error l (n + m)) by (induction l as [|x l IH]; intros [|n] m; cbn; auto; destruct m; reflexivity). rewrite SN. replace (skip + (i - skip)) with i by lia. rewrite nth_error_map, I1. reflexivity. }
  assert (ALL : forall i k w, nth_error ks i = Some k -> nth_error ws i = Some w -> skip <= i -> exists p, nth_error as_ (i - skip) = Some p /\ In p as_).
  { intros i k w I1 I2 I4. destruct (nth_error as_ (i - skip)) as [p|] eqn:E; [exists p; split; [reflexivity|eapply nth_error_In; exact E]|]. apply nth_error_None in E. rewrite P1, skipn_length in E. assert (i < length ks) by (apply nth_error_Some; congruence). lia. }
  assert (LU : forall zs, (forall x, In x zs -> exists i k w, x = with_pad (k, w) /\ nth_error ks i = Some k /\ nth_error ws i = Some w /\ skip <= i) -> lined_up a zs).
  { intros zs HZ. unfold lined_up. destruct (g_mode a).
    - intros x Hx. destruct (HZ x Hx) as (i & k & w & -> & I1 & I2 & I3). destruct (ALL i k w I1 I2 I3) as (p & Q1 & Q2). destruct (COL i k w p I1 I2 Q1 I3) as (st & B1 & B2 & _ & B3). rewrite B1, B2. split; [apply P2; exact Q2|]. apply B3. intros c st0. apply P2. exact Q2.
    - destruct P2 as (target & P2). exists target. intros x Hx. destruct (HZ x Hx) as (i & k & w & -> & I1 & I2 & I3). destruct (ALL i k w I1 I2 I3) as (p & Q1 & Q2). destruct (COL i k w p I1 I2 Q1 I3) as (st & B1 & B2 & B3 & _). rewrite B1, B2. exact (P2 _ _ _ B3 Q1 st).
    - intros x Hx. destruct (HZ x Hx) as (i & k & w & -> & I1 & I2 & I3). destruct (ALL i k w I1 I2 I3) as (p & Q1 & Q2). destruct (COL i k w p I1 I2 Q1 I3) as (st & B1 & B2 & B3 & _). rewrite B1, B2. exact (P2 _ _ _ B3 Q1 st).
    - exact P2. }
  assert (NC : forall i k w, nth_error (combine ks ws) i = Some (k, w) -> nth_error ks i = Some k /\ nth_error ws i = Some w). { clear. revert ws. induction ks as [|x l IH]; intros [|y m] [|i] k w H; try discriminate; cbn in *; [inversion H; auto|eauto]. }
  destruct (g_skip a) eqn:EG; unfold skip in *.
  - destruct ks as [|k ks']; [cbn in LK; lia|]. destruct ws as [|w ws']; [discriminate|]. cbn [combine List.map]. exists (with_pad (k, w)), (List.map with_pad (combine ks' ws')). split; [reflexivity|]. split.
    + cbn [with_pad snd k_pad]. inversion W4 as [|? ? ? ? T _]; subst. destruct T as (r' & st' & T1 & T2). cbn [fst snd] in T1, T2. assert (T3 : at_ (rev [SP] ++ r') (strwidth [SP] (strwidth (k_body k) 0)) (doc_exec1 limit usetabs (Literal [SP]) st')) by (apply exec_literal; [discriminate|exact T1]).
      pose proof (at_rev _ _ _ T2) as U1. pose proof (at_rev _ _ _ T3) as U2. change (hd (Literal [SP]) pads) with (Literal [SP]) in U1. rewrite U2 in U1. apply app_inv_tail in U1. apply (f_equal (@rev _)) in U1. rewrite !rev_involutive in U1. symmetry. exact U1.
    + apply LU. intros x Hx. apply in_map_iff in Hx. destruct Hx as ([k' w'] & <- & Hx). apply In_nth_error in Hx. destruct Hx as (i & Hi). exists (S i), k', w'. split; [reflexivity|]. destruct (NC (S i) k' w' Hi) as [Z1 Z2]. split; [exact Z1|]. split; [exact Z2|lia].
  - apply LU. intros x Hx. apply in_map_iff in Hx. destruct Hx as ([k' w'] & <- & Hx). apply In_nth_error in Hx. destruct Hx as (i & Hi). exists i, k', w'. split; [reflexivity|]. destruct (NC i k' w' Hi) as [Z1 Z2]. split; [exact Z1|]. split; [exact Z2|lia].
Qed.
End Main.

(** Whatever the style, aligning the continuations of a directive replaces the blanks in front of
    the backslashes by others and nothing else; it is left alone only if there are less than two
    of them or the style does not say how to align. *)
Theorem C24_blanks : forall mode limit indentw usetabs tk s, ~ In NUL s ->
  exists ks rest, s = concat (List.map src ks) ++ rest /\ Forall cont_ok ks /\ ~ continued rest /\
  match cpp_align mode limit indentw usetabs tk s with
  | CBad => False
  | CNull => mode = OtherMode \/ length ks <= 1
  | COut out => 2 <= length ks /\ out = concat (List.map dst ks) ++ rest
  end.
Proof.
  intros mode limit indentw usetabs tk s NS. destruct (align_spec mode limit indentw usetabs tk s NS) as (ks & rest & A & B & C & D). exists ks, rest. split; [exact A|]. split; [exact B|]. split; [exact C|].
  destruct (cpp_align mode limit indentw usetabs tk s); auto. tauto.
Qed.
(** The backslashes line up as the style asks, unless the alignment in use is recognised. *)
Theorem C24_columns : forall mode limit indentw usetabs tk s out, ~ In NUL s -> cpp_align mode limit indentw usetabs tk s = COut out -> sense_alignment limit s = None -> indentw <= limit ->
  exists ks rest, s = concat (List.map src ks) ++ rest /\ out = concat (List.map dst ks) ++ rest /\ Forall cont_ok ks /\ 2 <= length ks /\ ~ continued rest /\
  match mode with
  | DontAlign => forall k, In k ks -> bsl k = text_end k + 1 /\ k_pad k = [SP]
  | Left => exists target, forall k, In k ks -> bsl k = target /\ text_end k < target
  | Right => forall k, In k ks -> if limit - indentw <? text_end k then bsl k = text_end k else usetabs = false \/ (limit - indentw) mod 8 = 0 -> bsl k = limit - indentw
  | OtherMode => False
  end.
Proof.
  intros mode limit indentw usetabs tk s out NS H S L. destruct (align_spec mode limit indentw usetabs tk s NS) as (ks & rest & A & B & C & D). rewrite H in D. destruct D as (D1 & D2 & D3). cbn zeta in D3. unfold alignment_of in D3. rewrite S in D3. cbn [g_skip] in D3.
  exists ks, rest. split; [exact A|]. split; [exact D2|]. split; [exact B|]. split; [exact D1|]. split; [exact C|]. unfold lined_up in D3. cbn [g_mode g_width g_tabs] in D3. unfold width0 in D3. destruct (Nat.leb_spec indentw limit); [exact D3|lia].
Qed.
(** A recognised alignment is kept: there are three lines or more, the backslash of the second and
    third are in the same column, where those of all lines but maybe the first are put; or all of
    the first lines have one space, so get all. *)
Theorem C24_sensed : forall mode limit indentw usetabs tk s out a, ~ In NUL s -> cpp_align mode limit indentw usetabs tk s = COut out -> sense_alignment limit s = Some a ->
  exists ks rest, s = concat (List.map src ks) ++ rest /\ out = concat (List.map dst ks) ++ rest /\ Forall cont_ok ks /\ 2 <= length ks /\ ~ continued rest /\
  (g_mode a = DontAlign /\ (forall k, In k ks -> bsl k = text_end k + 1 /\ k_pad k = [SP]) \/
   g_mode a = Right /\ forall i k, nth_error ks i = Some k -> (g_skip a = true -> i = 0 -> k_pad k = [SP]) /\
     (g_skip a = false \/ 0 < i -> if g_width a <? text_end k then bsl k = text_end k else g_tabs a = false \/ g_width a mod 8 = 0 -> bsl k = g_width a)).
Proof.
  intros mode limit indentw usetabs tk s out a NS H S. destruct (align_spec mode limit indentw usetabs tk s NS) as (ks & rest & A & B & C & D). rewrite H in D. destruct D as (D1 & D2 & D3). pose proof (skip_ok mode limit indentw usetabs s) as SK. cbn zeta in D3. unfold alignment_of in D3, SK. rewrite S in D3, SK.
  exists ks, rest. split; [exact A|]. split; [exact D2|]. split; [exact B|]. split; [exact D1|]. split; [exact C|]. 
  assert (M : g_mode a = DontAlign \/ g_mode a = Right). { clear - S. unfold sense_alignment in S. destruct (sense_lines limit 3 s) as [l|]; [|discriminate]. destruct (forallb not_aligned l); [inversion S; auto|]. destruct (_ && _); [|discriminate]. inversion S; auto. }
  unfold lined_up in D3. destruct M as [M|M]; rewrite M in *.
  - left. split; [reflexivity|]. destruct (g_skip a); [discriminate (SK eq_refl)|exact D3].
  - right. split; [reflexivity|]. intros i k Hk. destruct (g_skip a).
    + destruct D3 as (k0 & r & E & P & D3). subst ks. split; [intros _ ->; inversion Hk; subst; exact P|]. intros [Q|Q]; [discriminate|]. destruct i as [|i]; [lia|]. exact (D3 k (nth_error_In r i Hk)).
    + split; [discriminate|]. intros _. exact (D3 k (nth_error_In _ _ Hk)).
Qed.

(** A column limit below the width of an indent: the bound is computed in 32 bits and wraps. *)
Definition wrap_input : bytes := s2b "#define x a" ++ [SP; SP; BSL; NL] ++ s2b "b" ++ [BSL; NL] ++ s2b "c".
Lemma nl_cut : forall a b a' b', a ++ NL :: b = a' ++ NL :: b' -> ~ In NL a -> ~ In NL a' -> b = b'.
Proof.
  induction a as [|x a IH]; intros b [|y a'] b' E N N'; cbn [app] in E.
  - congruence.
  - exfalso. apply N'. left. congruence.
  - exfalso. apply N. left. congruence.
  - inversion E. eapply IH; eauto; intros Q; [apply N|apply N']; right; exact Q.
Qed.
Lemma display_bound : forall s c, display_col s c <= c + 8 * length s.
Proof.
  induction s as [|x s IH]; intros c; [cbn; lia|]. change (x :: s) with ([x] ++ s). rewrite display_col_app, app_length. cbn [length]. specialize (IH (display_col [x] c)). enough (display_col [x] c <= c + 8) by lia. cbn. unfold col_step. repeat match goal with |- context [if ?b then _ else _] => destruct b end; lia.
Qed.
Lemma wrap_right : forall limit indentw s tk w, ~ In NUL s -> sense_alignment limit s = None -> width0 limit indentw = w ->
  (exists ks rest, s = concat (List.map src ks) ++ rest /\ Forall cont_ok ks /\ ~ continued rest /\ length ks <= 1) \/
  exists out ks rest, cpp_align Right limit indentw false tk s = COut out /\ s = concat (List.map src ks) ++ rest /\ out = concat (List.map dst ks) ++ rest /\ 2 <= length ks /\
    forall k, In k ks -> if w <? text_end k then True else bsl k = w.
Proof.
  intros limit indentw s tk w NS SN W. destruct (align_spec Right limit indentw false tk s NS) as (ks & rest & A & B & C & D).
  destruct (cpp_align Right limit indentw false tk s) as [| |out]; [|contradiction|].
  - left. exists ks, rest. destruct D as [D|D]; [discriminate|]. auto.
  - right. destruct D as (D1 & D2 & D3). exists out, ks, rest. split; [reflexivity|]. split; [exact A|]. split; [exact D2|]. split; [exact D1|]. intros k Hk.
    cbn zeta in D3. unfold alignment_of in D3. rewrite SN in D3. cbn [g_skip] in D3. unfold lined_up in D3. cbn [g_mode g_width g_tabs] in D3. rewrite W in D3. specialize (D3 k Hk). destruct (w <? text_end k); [exact I|]. apply D3. left. reflexivity.
Qed.
Lemma wrap_two : forall ks rest, wrap_input = concat (List.map src ks) ++ rest -> Forall cont_ok ks -> ~ continued rest -> 2 <= length ks.
Proof.
  intros ks rest A B C. destruct ks as [|k [|k2 ks]]; [exfalso..|cbn; lia].
  - apply C. cbn [List.map concat app] in A. rewrite <- A. exists (s2b "#define x a  "), (s2b "b" ++ [BSL; NL] ++ s2b "c"). split; [reflexivity|]. intros Q. vm_compute in Q. intuition discriminate.
  - apply C. inversion B as [|? ? (_ & _ & B3 & B4 & _) _]; subst. cbn [List.map concat] in A. rewrite app_nil_r in A. unfold src in A.
    replace ((k_body k ++ k_ws k ++ [BSL; NL]) ++ rest) with ((k_body k ++ k_ws k ++ [BSL]) ++ NL :: rest) in A by (rewrite <- !app_assoc; reflexivity).
    change wrap_input with ((s2b "#define x a  " ++ [BSL]) ++ NL :: (s2b "b" ++ [BSL; NL] ++ s2b "c")) in A. apply nl_cut in A.
    + rewrite <- A. exists (s2b "b"), (s2b "c"). split; [reflexivity|]. intros Q. vm_compute in Q. intuition discriminate.
    + intros Q. vm_compute in Q. intuition discriminate.
    + intros Q. apply in_app_or in Q. destruct Q as [Q|Q]; [contradiction|]. apply in_app_or in Q. destruct Q as [Q|[Q|[]]]; [contradiction|discriminate].
Qed.
Lemma body_bound : forall ks rest s k, s = concat (List.map src ks) ++ rest -> In k ks -> text_end k <= 8 * length s.
Proof.
  intros ks rest s k A Hk. pose proof (display_bound (k_body k) 0) as TB. fold (text_end k) in TB. enough (length (k_body k) <= length s) by lia. rewrite A, app_length. apply in_split in Hk. destruct Hk as (l1 & l2 & ->). rewrite map_app, concat_app, app_length. cbn [List.map concat]. rewrite app_length. unfold src at 2. rewrite app_length. lia.
Qed.
Lemma width_wraps : N.of_nat (width0 0 8) = (2 ^ 32 - 8)%N.
Proof. unfold width0. replace (8 <=? 0) with false by reflexivity. rewrite N2Nat.id. reflexivity. Qed.
Theorem C24_underflow_refuted : exists limit indentw s, ~ In NUL s /\ forall tk, exists out ks rest, cpp_align Right limit indentw false tk s = COut out /\
  s = concat (List.map src ks) ++ rest /\ out = concat (List.map dst ks) ++ rest /\ 2 <= length ks /\ forall k, In k ks -> N.of_nat (bsl k) = (2 ^ 32 - 8)%N.
Proof.
  assert (NS : ~ In NUL wrap_input) by (intros Q; vm_compute in Q; intuition discriminate). assert (SN : sense_alignment 0 wrap_input = None) by (vm_compute; reflexivity).
  exists 0, 8, wrap_input. split; [exact NS|]. intros tk. pose proof width_wraps as W. pose proof (wrap_right 0 8 wrap_input tk _ NS SN eq_refl) as H. revert W H. generalize (width0 0 8) as w. intros w W H.
  destruct H as [(ks & rest & A & B & C & D)|(out & ks & rest & E & A & O & L & D)]; [pose proof (wrap_two ks rest A B C); lia|].
  exists out, ks, rest. split; [exact E|]. split; [exact A|]. split; [exact O|]. split; [exact L|]. intros k Hk. specialize (D k Hk). pose proof (body_bound _ _ _ _ A Hk) as T. assert (LW : length wrap_input <= 100) by (vm_compute; lia). clear E.
  destruct (Nat.ltb_spec w (text_end k)) as [Q|Q]; [|rewrite D; exact W]. exfalso. assert (Q2 : (N.of_nat w < N.of_nat (text_end k))%N) by lia. rewrite W in Q2. change (2 ^ 32 - 8)%N with 4294967288%N in Q2. lia.
Qed.

(** Three lines, the style's alignment: to the right, with tabs. *)
Definition input24 : bytes := s2b "define x do {" ++ [SP; BSL; NL] ++ s2b "y();" ++ [TAB; BSL; NL] ++ [BSL; NL] ++ s2b "} while (0)".
Example C24_ex : ~ In NUL input24 /\ sense_alignment 32 input24 = None /\
  cpp_align Right 32 8 true tok0 input24 = COut (s2b "define x do {" ++ [TAB; TAB; BSL; NL] ++ s2b "y();" ++ [TAB; TAB; TAB; BSL; NL] ++ [TAB; TAB; TAB; BSL; NL] ++ s2b "} while (0)") /\
  cpp_align Left 32 8 false tok0 input24 = COut (s2b "define x do {" ++ [SP; BSL; NL] ++ s2b "y();          " ++ [BSL; NL] ++ s2b "              " ++ [BSL; NL] ++ s2b "} while (0)") /\
  cpp_align DontAlign 32 8 false tok0 input24 = COut (s2b "define x do {" ++ [SP; BSL; NL] ++ s2b "y();" ++ [SP; BSL; NL; SP; BSL; NL] ++ s2b "} while (0)").
Proof. split; [intros Q; vm_compute in Q; intuition discriminate|]. vm_compute. auto. Qed.
(** The first lines are aligned: the others follow. *)
Definition sensed24 : bytes := s2b "define x" ++ [SP; BSL; NL] ++ s2b "y();" ++ [TAB; TAB; BSL; NL] ++ s2b "zzzzzzzzzz" ++ [TAB; BSL; NL] ++ s2b "w" ++ [BSL; NL] ++ s2b "v".
Example C24_ex_sensed : ~ In NUL sensed24 /\ sense_alignment 32 sensed24 = Some (Alignment Right 16 false true) /\
  cpp_align Left 32 8 true tok0 sensed24 = COut (s2b "define x" ++ [SP; BSL; NL] ++ s2b "y();            " ++ [BSL; NL] ++ s2b "zzzzzzzzzz      " ++ [BSL; NL] ++ s2b "w               " ++ [BSL; NL] ++ s2b "v").
Proof. split; [intros Q; vm_compute in Q; intuition discriminate|]. vm_compute. auto. Qed.

Print Assumptions C24_blanks.
Print Assumptions C24_columns.
Print Assumptions C24_sensed.
Print Assumptions C24_underflow_refuted.
