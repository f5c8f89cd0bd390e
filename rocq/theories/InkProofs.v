(** The texts a document prints, other than blank ones: of the tokens, in order. *)
From Verif Require Import Base TokenModel LexModel UtilModel UtilProofs DocModel DocProofs DocEmit DocFit DocProps ExprModel ExprProofs ExprProps BuildModel BuildProofs ExprDocModel ExprDocProofs ExprDocProps SynModel RunProofs SynProofs SynProps.
Local Close Scope Q_scope.
Local Open Scope nat_scope.

(** Texts that are not blank. *)
Definition solid_text (s : bytes) : bool := negb (beq (strip s) []).
Definition inked (d : doc) : list bytes := filter solid_text (map snd (fst (texts d 0))).
(** The tokens printed for parts. *)
Definition shown_toks (i : item) : list token := match i with T k | TL k => [k] | EX _ _ _ x _ => fringe x | _ => [] end.
Definition printed (l : list item) : list token := flat_map shown_toks l.

Lemma blank_bn : forall s, strip s = [] -> Forall bn s.
Proof.
  induction s as [|c s IH]; intros H; [constructor|]. cbn [strip filter] in H. destruct (blank c) eqn:E; [|discriminate]. constructor; [|apply IH, H]. unfold blank in E. repeat (apply orb_prop in E; destruct E as [E|E]); apply Ascii.eqb_eq in E; subst c; unfold bn, tb; auto.
Qed.
Lemma rendered_ink : forall ts o, rendered ts o -> rendered (filter solid_text ts) o.
Proof.
  induction 1 as [w W|ts o c z w H IH Z W]; [apply rd_nil, W|]. rewrite filter_app. cbn [filter]. destruct (solid_text (c ++ z)) eqn:E; [apply rd_snoc; assumption|]. rewrite app_nil_r. apply rendered_blank; [exact IH|]. unfold solid_text in E. apply negb_false_iff, beq_eq in E. rewrite strip_app in E. apply app_eq_nil in E. apply Forall_app. split; [apply blank_bn, E|exact W].
Qed.
Lemma strip_inked : forall d, strip (doc_text d) = concat (map strip (inked d)).
Proof.
  intros d. unfold doc_text, inked. rewrite strip_concat. induction (map snd (fst (texts d 0))) as [|s l IH]; [reflexivity|]. cbn [map concat filter]. unfold solid_text at 1. destruct (beq (strip s) []) eqn:E; cbn [negb]; [apply beq_eq in E; rewrite E; exact IH|]. cbn [map concat]. rewrite IH. reflexivity.
Qed.
Lemma inked_none : forall d, strip (doc_text d) = [] -> inked d = [].
Proof.
  intros d H. rewrite strip_inked in H. unfold inked in *. induction (map snd (fst (texts d 0))) as [|s l IH]; [reflexivity|]. cbn [filter] in *. destruct (solid_text s) eqn:E; [|apply IH, H]. cbn [map concat] in H. apply app_eq_nil in H. destruct H as [H _]. unfold solid_text in E. rewrite H in E. discriminate.
Qed.
Lemma inked_seq : forall l, Forall printable l -> filter solid_text (map snd (fst (texts (Concat l) 0))) = flat_map inked l.
Proof.
  intros l H. destruct (printable_seq l H) as [_ ->]. clear H. induction l as [|d l IH]; [reflexivity|]. cbn [flat_map]. rewrite filter_app, IH. reflexivity.
Qed.

Section Ink.
Variable q : queries.
Variable D : docs.
Variable labelled : token -> doc.
Hypothesis labels : forall k, inked (labelled k) = inked (tok D k).
Hypothesis recs : forall ks, inked (rec D ks) = flat_map (fun k => inked (tok D k)) ks.
(** As ExprDocProps.shown_text. *)
Lemma shown_inked : forall a x, solid x -> s_parens a = false -> s_sizeof a = false ->
  flat_map inked (map (pdoc D) (shown_exec q a x)) = flat_map (fun k => inked (tok D k)) (fringe x).
Proof.
  intros a x S1 P1 P2.
  assert (G : forall ps, (forall p, In p ps -> p <> Open /\ p <> Close) -> flat_map inked (map (pdoc D) ps) = flat_map (fun k => inked (tok D k)) (toks_of ps)).
  { induction ps as [|p ps IH]; intros F; [reflexivity|]. change (p :: ps) with ([p] ++ ps) at 2. rewrite toks_app, flat_map_app. cbn [map flat_map]. rewrite IH by (intros p' I'; apply F; right; exact I'). f_equal.
    destruct (F p (or_introl eq_refl)) as [F1 F2]. destruct p; cbn [pdoc toks_of flat_map map app]; rewrite ?app_nil_r; try reflexivity; try congruence; try apply recs.
    destruct (aligned D k) as [[i j] t]. reflexivity. }
  destruct (no_parens q a x P1 P2) as [E N]. rewrite G by exact N. f_equal. unfold shown_exec. rewrite !toks_app, !toks_opt by reflexivity. cbn [app]. rewrite E. apply C60_tokens, S1.
Qed.
Variable S_ : setting.
Lemma item_inked : forall i, s_parens S_ = false -> s_sizeof S_ = false -> proper S_ i ->
  flat_map inked (idl q D labelled i) = flat_map (fun k => inked (tok D k)) (shown_toks i).
Proof.
  intros i Q1 Q2 H. destruct i as [k|k| | | |stop a s x s'|d]; cbn [idl shown_toks flat_map]; rewrite ?app_nil_r; try reflexivity; auto.
  2: apply inked_none, H.
  destruct H as (P1 & P2 & SO & _). rewrite Q1 in P1. rewrite Q2 in P2. destruct (isnull x) eqn:N; [destruct x; (reflexivity || discriminate N)|]. apply shown_inked; auto. apply SO. intros ->. discriminate N.
Qed.
Lemma items_inked : forall its, s_parens S_ = false -> s_sizeof S_ = false -> Forall (proper S_) its ->
  flat_map inked (flat_map (idl q D labelled) its) = flat_map (fun k => inked (tok D k)) (printed its).
Proof.
  intros its Q1 Q2 H. unfold printed. induction H as [|i its H _ IH]; [reflexivity|]. cbn [flat_map]. rewrite !flat_map_app, IH, item_inked by assumption. reflexivity.
Qed.
End Ink.

Lemma printed_kept : forall its, Forall kept its -> printed its = consumed its.
Proof. induction 1 as [|i its H _ IH]; [reflexivity|]. unfold printed, consumed in *. cbn [flat_map]. rewrite IH. f_equal. destruct i; cbn [kept shown_toks ins] in *; auto. Qed.
Lemma sub_refl : forall A (l : list A), ExprProps.sub l l.
Proof. induction l; constructor; assumption. Qed.
Lemma sub_app : forall A (a b c d : list A), ExprProps.sub a b -> ExprProps.sub c d -> ExprProps.sub (a ++ c) (b ++ d).
Proof. intros A a b c d H1 H2. induction H1 as [l|x a b H IH|x a b H IH]; cbn [app]; [induction l; [exact H2|constructor; exact IHl]|constructor; exact IH|constructor; exact IH]. Qed.
Lemma printed_sub : forall S_ its, Forall (proper S_) its -> ExprProps.sub (printed its) (consumed its).
Proof.
  intros S_ its H. induction H as [|i its H _ IH]; [constructor|]. unfold printed, consumed in *. cbn [flat_map]. apply sub_app; [|exact IH]. destruct i; cbn [shown_toks ins]; try apply sub_refl. apply H.
Qed.
