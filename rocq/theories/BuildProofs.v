(** Reasoning about documents under construction (BuildModel). *)
From Verif Require Import Base DocModel BuildModel.
Local Close Scope Q_scope.
Local Open Scope nat_scope.

(** The documents without children, in order; where a line may be broken without a space
    is left out. *)
Fixpoint leaves (d : doc) : list doc :=
  match d with
  | Concat l => flat_map leaves l
  | Group d | Indent _ d | NoIndent d | Optional d | Minimize _ _ d | Scope d | Maxlines _ d => leaves d
  | Softline => []
  | d => [d]
  end.
Definition flv (f : frame) : list doc := flat_map leaves (rev (f_kids f)).
Definition plv (fs : list frame) : list doc := flat_map flv fs.

Lemma leaves_fdoc : forall f, leaves (fdoc f) = flv f.
Proof. intros [ks l m]. unfold fdoc, flv. cbn [f_kinds f_kids]. induction ks as [|k ks IH]; [reflexivity|]. cbn [fold_right]. destruct k; exact IH. Qed.
Lemma flv_add : forall d w f, flv (add d w f) = flv f ++ leaves d.
Proof. intros d w f. unfold flv, add. cbn [f_kids rev]. rewrite flat_map_app. cbn [flat_map]. rewrite app_nil_r. reflexivity. Qed.
Lemma flv_whole : forall r f, flv (whole f r) = plv (f :: r).
Proof.
  induction r as [|g r IH]; intros f; [unfold plv; cbn [flat_map whole]; rewrite app_nil_r; reflexivity|].
  cbn [whole]. rewrite flv_add, leaves_fdoc, IH. reflexivity.
Qed.
Lemma leaves_built : forall s, leaves (built s) = plv (b_path s).
Proof. intros s. unfold built. destruct (b_path s) as [|f r]; [reflexivity|]. rewrite leaves_fdoc. apply flv_whole. Qed.

(** The same with the indentation in force: the sum of the indents around, nothing within
    NOINDENT.  The special values of doc.h do not count. *)
Definition inner (z : Z) (k : kind) : Z :=
  match k with KIndent v => if (v <? INDENT_WIDTH)%Z then (z + v)%Z else z | KNoIndent => 0%Z | _ => z end.
Fixpoint ileaves (z : Z) (d : doc) : list (Z * doc) :=
  match d with
  | Concat l => flat_map (ileaves z) l
  | Group d | Optional d | Minimize _ _ d | Scope d | Maxlines _ d => ileaves z d
  | Indent v d => ileaves (inner z (KIndent v)) d
  | NoIndent d => ileaves 0 d
  | Softline => []
  | d => [(z, d)]
  end.
Definition iflv (z : Z) (f : frame) : list (Z * doc) := flat_map (ileaves z) (rev (f_kids f)).
Definition within (z : Z) (f : frame) : Z := fold_left inner (f_kinds f) z.
Fixpoint iplv (z : Z) (fs : list frame) : list (Z * doc) :=
  match fs with f :: r => let z := within z f in iflv z f ++ iplv z r | [] => [] end.
(** The indentation at a place. *)
Definition depth (fs : list frame) : Z := fold_left within fs 0%Z.

Lemma snd_ileaves : forall d z, map snd (ileaves z d) = leaves d.
Proof.
  fix IH 1. intros d z. destruct d; cbn [ileaves leaves map snd]; try apply IH; try reflexivity.
  induction l as [|d l IL]; [reflexivity|]. cbn [flat_map]. rewrite map_app, IL, IH. reflexivity.
Qed.
Lemma snd_iflv : forall z f, map snd (iflv z f) = flv f.
Proof. intros z f. unfold iflv, flv. induction (rev (f_kids f)) as [|d l IH]; [reflexivity|]. cbn [flat_map]. rewrite map_app, IH, snd_ileaves. reflexivity. Qed.
Lemma snd_iplv : forall fs z, map snd (iplv z fs) = plv fs.
Proof. induction fs as [|f fs IH]; intros z; [reflexivity|]. cbn [iplv]. cbv zeta. rewrite map_app, snd_iflv, IH. reflexivity. Qed.
Lemma ileaves_fdoc : forall f z, ileaves z (fdoc f) = iflv (within z f) f.
Proof. intros [ks l m] z. unfold fdoc, iflv, within. cbn [f_kinds f_kids]. revert z. induction ks as [|k ks IH]; intros z; [reflexivity|]. cbn [fold_right fold_left]. destruct k; exact (IH _). Qed.
Lemma iflv_add : forall d w f z, iflv z (add d w f) = iflv z f ++ ileaves z d.
Proof. intros d w f z. unfold iflv, add. cbn [f_kids rev]. rewrite flat_map_app. cbn [flat_map]. rewrite app_nil_r. reflexivity. Qed.
Lemma whole_kinds : forall r f, f_kinds (whole f r) = f_kinds f.
Proof. intros [|g r] f; reflexivity. Qed.
Lemma within_whole : forall r f z, within z (whole f r) = within z f.
Proof. intros. unfold within. rewrite whole_kinds. reflexivity. Qed.
Lemma iplv_whole : forall r f z, iflv (within z f) (whole f r) = iplv z (f :: r).
Proof.
  induction r as [|g r IH]; intros f z; [cbn [iplv whole]; rewrite app_nil_r; reflexivity|].
  cbn [whole]. rewrite iflv_add, ileaves_fdoc, within_whole, IH. reflexivity.
Qed.
Lemma ileaves_built : forall s, ileaves 0 (built s) = iplv 0 (b_path s).
Proof. intros s. unfold built. destruct (b_path s) as [|f r]; [reflexivity|]. rewrite ileaves_fdoc, within_whole. apply iplv_whole. Qed.
Lemma iplv_app : forall a b z, iplv z (a ++ b) = iplv z a ++ iplv (fold_left within a z) b.
Proof. induction a as [|f a IH]; intros b z; [reflexivity|]. cbn [app iplv fold_left]. cbv zeta. rewrite IH, app_assoc. reflexivity. Qed.
Lemma iplv_one : forall f z, iplv z [f] = iflv (within z f) f.
Proof. intros. cbn [iplv]. apply app_nil_r. Qed.

Section Good.
(** A property of documents that those around them have as well. *)
Variable good : doc -> Prop.
Variable gk : kind -> Prop.
Hypothesis good_concat : forall l, Forall good l -> good (Concat l).
Hypothesis good_wrap : forall k d, gk k -> good d -> good (wrap1 k d).
Definition gf (f : frame) : Prop := Forall gk (f_kinds f) /\ Forall good (f_kids f).
Lemma gf_add : forall d w f, good d -> gf f -> gf (add d w f).
Proof. intros d w f H (A & B). split; [exact A|]. constructor; assumption. Qed.
Lemma gf_doc : forall f, gf f -> good (fdoc f).
Proof.
  intros [ks l m] (A & B). cbn [f_kinds f_kids] in *. unfold fdoc. cbn [f_kinds f_kids]. induction A as [|k ks K _ IH]; [apply good_concat, Forall_rev, B|]. cbn [fold_right]. apply good_wrap; assumption.
Qed.
Lemma gf_whole : forall r f, Forall gf (f :: r) -> gf (whole f r).
Proof. induction r as [|g r IH]; intros f H; inversion H as [|? ? A B]; subst; [exact A|]. cbn [whole]. apply gf_add; [apply gf_doc, IH, B|exact A]. Qed.
Lemma good_built : forall s, Forall gf (b_path s) -> good (built s).
Proof. intros s H. unfold built. destruct (b_path s) as [|f r]; [apply good_concat; constructor|]. apply gf_doc, gf_whole, H. Qed.

(** [grewi p s ps s']: nothing above [p] has changed, [ps] was added, behind what was there
    before at [p]. *)
Definition kids_at (p : point) (fs : list frame) : list doc := match nth_error fs p with Some f => f_kids f | None => [] end.
Definition kinds_at (p : point) (fs : list frame) : list kind := match nth_error fs p with Some f => f_kinds f | None => [] end.
Definition grewi (p : point) (s : bs) (ps : list (Z * doc)) (s' : bs) : Prop :=
  firstn p (b_path s') = firstn p (b_path s) /\ p < length (b_path s') /\ iplv 0 (b_path s') = iplv 0 (b_path s) ++ ps /\
  (Forall gf (b_path s) -> Forall gf (b_path s')) /\ kinds_at p (b_path s') = kinds_at p (b_path s) /\ exists new, kids_at p (b_path s') = new ++ kids_at p (b_path s).
(** Without indentation. *)
Definition grew (p : point) (s : bs) (ps : list doc) (s' : bs) : Prop := exists ips, grewi p s ips s' /\ map snd ips = ps.
Lemma grewi_refl : forall p s, p < length (b_path s) -> grewi p s [] s.
Proof. intros p s H. repeat split; auto; [rewrite app_nil_r; reflexivity|exists []; reflexivity]. Qed.
Lemma grew_refl : forall p s, p < length (b_path s) -> grew p s [] s.
Proof. intros p s H. exists []. split; [apply grewi_refl, H|reflexivity]. Qed.
Lemma grew_plv : forall p s ps s', grew p s ps s' -> plv (b_path s') = plv (b_path s) ++ ps.
Proof. intros p s ps s' (ips & (_ & _ & H & _) & <-). rewrite <- !(snd_iplv _ 0), H. apply map_app. Qed.
Lemma nth_above : forall p q (a b : list frame), firstn q a = firstn q b -> p < q -> nth_error a p = nth_error b p.
Proof.
  induction p as [|p IH]; intros [|q] a b H L; try lia; destruct a as [|x a], b as [|y b]; try discriminate H; cbn in *; inversion H; subst; try reflexivity. apply (IH q); [congruence|lia].
Qed.
Lemma kids_above : forall p q a b, firstn q a = firstn q b -> p < q -> kids_at p a = kids_at p b.
Proof. intros p q a b H L. unfold kids_at. rewrite (nth_above p q a b H L). reflexivity. Qed.
Lemma kinds_above : forall p q a b, firstn q a = firstn q b -> p < q -> kinds_at p a = kinds_at p b.
Proof. intros p q a b H L. unfold kinds_at. rewrite (nth_above p q a b H L). reflexivity. Qed.
Lemma kinds_app : forall lo f r, kinds_at (length lo) (lo ++ f :: r) = f_kinds f.
Proof. intros. unfold kinds_at. rewrite nth_error_app2, Nat.sub_diag by lia. reflexivity. Qed.
Lemma kids_app : forall lo f r, kids_at (length lo) (lo ++ f :: r) = f_kids f.
Proof. intros. unfold kids_at. rewrite nth_error_app2, Nat.sub_diag by lia. reflexivity. Qed.
Lemma whole_kids : forall r f, exists new, f_kids (whole f r) = new ++ f_kids f.
Proof. intros [|g r] f; [exists []; reflexivity|]. cbn [whole]. exists [fdoc (whole g r)]. reflexivity. Qed.
Lemma grewi_trans : forall p q s a s1 b s2, grewi p s a s1 -> p <= q -> grewi q s1 b s2 -> grewi p s (a ++ b) s2.
Proof.
  intros p q s a s1 b s2 (A1 & A2 & A3 & A4 & A6 & n1 & A5) L (B1 & B2 & B3 & B4 & B6 & n2 & B5).
  split; [|split; [lia|split; [rewrite B3, A3, app_assoc; reflexivity|split; [auto|split]]]].
  - apply (f_equal (firstn p)) in B1. rewrite !firstn_firstn, !(Nat.min_l p q L) in B1. congruence.
  - destruct (Nat.eq_dec p q) as [<-|N]; [congruence|]. rewrite (kinds_above p q _ _ B1) by lia. exact A6.
  - destruct (Nat.eq_dec p q) as [<-|N]; [exists (n2 ++ n1); rewrite B5, A5, app_assoc; reflexivity|]. exists n1. rewrite (kids_above p q _ _ B1) by lia. exact A5.
Qed.
Lemma grew_trans : forall p q s a s1 b s2, grew p s a s1 -> p <= q -> grew q s1 b s2 -> grew p s (a ++ b) s2.
Proof. intros p q s a s1 b s2 (x & X & <-) L (y & Y & <-). exists (x ++ y). split; [eapply grewi_trans; eassumption|apply map_app]. Qed.
(** The indentation at [p] stays the same. *)
Definition deep (p : point) (s : bs) : Z := depth (firstn (S p) (b_path s)).
Lemma firstn_S_nth : forall p (l : list frame), firstn (S p) l = firstn p l ++ match nth_error l p with Some f => [f] | None => [] end.
Proof. induction p as [|p IH]; intros [|f l]; try reflexivity. cbn [nth_error]. rewrite !firstn_cons. cbn [app]. f_equal. apply IH. Qed.
Lemma deep_grew : forall p q s a s', grewi q s a s' -> p <= q -> p < length (b_path s) -> deep p s' = deep p s.
Proof.
  intros p q s a s' (A1 & A2 & _ & _ & A6 & _) L P. unfold deep, depth. destruct (Nat.eq_dec p q) as [<-|N].
  - rewrite !firstn_S_nth, A1, !fold_left_app. unfold kinds_at in A6. destruct (nth_error (b_path s') p) as [f|] eqn:E1; [|apply nth_error_None in E1; lia]. destruct (nth_error (b_path s) p) as [g|] eqn:E2; [|apply nth_error_None in E2; lia].
    cbn [fold_left]. unfold within. rewrite A6. reflexivity.
  - apply (f_equal (firstn (S p))) in A1. rewrite !firstn_firstn, !(Nat.min_l (S p) q) in A1 by lia. rewrite A1. reflexivity.
Qed.

Lemma change_spec : forall u p fs, p < length fs -> exists lo f r, fs = lo ++ f :: r /\ length lo = p /\ change p u fs = Some (lo ++ u (whole f r)).
Proof.
  intros u p fs. revert p. induction fs as [|f fs IH]; intros p H; [cbn in H; lia|]. destruct p as [|p].
  - exists [], f, fs. repeat split.
  - cbn [length] in H. destruct (IH p) as (lo & g & r & A & B & C); [lia|]. exists (f :: lo), g, r. cbn [change]. rewrite A in *. rewrite C. cbn [app length]. repeat split. lia.
Qed.
Lemma firstn_len : forall (lo : list frame) r, firstn (length lo) (lo ++ r) = lo.
Proof. intros. rewrite firstn_app, Nat.sub_diag, firstn_all, app_nil_r. reflexivity. Qed.
Lemma plv_app : forall a b, plv (a ++ b) = plv a ++ plv b.
Proof. intros. apply flat_map_app. Qed.
Lemma plv_one : forall f, plv [f] = flv f.
Proof. intros. unfold plv. cbn [flat_map]. apply app_nil_r. Qed.

(** ** Weakest preconditions *)
Definition wp {A} (m : M A) (Q : A -> bs -> Prop) (s : bs) : Prop := match m s with Some (a, s') => Q a s' | None => False end.
Lemma wp_ret : forall A (a : A) (Q : A -> bs -> Prop) s, Q a s -> wp (ret a) Q s.
Proof. intros. exact H. Qed.
Lemma wp_bnd : forall A B (m : M A) (f : A -> M B) (Q : B -> bs -> Prop) s, wp m (fun a => wp (f a) Q) s -> wp (bnd m f) Q s.
Proof. intros A B m f Q s H. unfold wp, bnd in *. destruct (m s) as [[a s1]|]; exact H. Qed.
Lemma wp_mono : forall A (m : M A) (Q R : A -> bs -> Prop) s, wp m Q s -> (forall a s', Q a s' -> R a s') -> wp m R s.
Proof. intros A m Q R s H K. unfold wp in *. destruct (m s) as [[a s1]|]; auto. Qed.

Lemma leaf_stepi : forall d w p s, p < length (b_path s) -> good d ->
  wp (leaf_weight d w p) (fun _ s' => grewi p s (ileaves (deep p s) d) s' /\ length (b_path s') = S p) s.
Proof.
  intros d w p s H G. unfold wp, leaf_weight. destruct (change_spec (fun f => [add d w f]) p (b_path s) H) as (lo & f & r & A & B & C). rewrite C.
  assert (DE : deep p s = within (fold_left within lo 0%Z) f).
  { unfold deep, depth. rewrite A. replace (S p) with (length (lo ++ [f])) by (rewrite app_length; cbn [length]; lia). replace (lo ++ f :: r) with ((lo ++ [f]) ++ r) by (rewrite <- app_assoc; reflexivity). rewrite firstn_len, fold_left_app. reflexivity. }
  unfold grewi. cbn [b_path]. rewrite DE, A. rewrite !iplv_app, iplv_one. change (within ?z (add d w (whole f r))) with (within z (whole f r)). rewrite within_whole, iflv_add, iplv_whole. rewrite <- B at 1 2. rewrite !firstn_len, app_length. cbn [length].
  split; [|lia]. split; [reflexivity|]. split; [lia|]. split; [rewrite app_assoc; reflexivity|].
  split; [|split; [rewrite <- B, !kinds_app; cbn [add f_kinds]; apply whole_kinds|rewrite <- B, !kids_app; destruct (whole_kids r f) as [new E]; exists (d :: new); cbn [add f_kids]; rewrite E; reflexivity]].
  intros F. apply Forall_app in F. destruct F as [F1 F2]. apply Forall_app. split; [exact F1|]. constructor; [|constructor]. apply gf_add; [exact G|]. apply gf_whole, F2.
Qed.
Lemma leaf_step : forall d w p s, p < length (b_path s) -> good d ->
  wp (leaf_weight d w p) (fun _ s' => grew p s (leaves d) s' /\ length (b_path s') = S p) s.
Proof. intros d w p s H G. eapply wp_mono; [apply (leaf_stepi d w p s H G)|]. intros [] s' (A & B). split; [|exact B]. eexists. split; [exact A|apply snd_ileaves]. Qed.
Lemma alloc_stepi : forall ks p s, p < length (b_path s) -> Forall gk ks ->
  wp (alloc ks p) (fun q s' => q = S p /\ grewi p s [] s' /\ length (b_path s') = S (S p) /\ deep (S p) s' = fold_left inner ks (deep p s)) s.
Proof.
  intros ks p s H G. unfold wp, alloc. destruct (change_spec (fun f => [f; Frame ks [] 0]) p (b_path s) H) as (lo & f & r & A & B & C). rewrite C.
  split; [reflexivity|]. split; [|split].
  - unfold grewi. cbn [b_path]. rewrite A, !iplv_app. cbn [iplv]. cbv zeta. rewrite within_whole, iplv_whole. unfold iflv at 2. cbn [f_kids rev flat_map app iplv]. cbv zeta. rewrite !app_nil_r. rewrite <- B at 1 2. rewrite !firstn_len, app_length. cbn [length].
    split; [reflexivity|]. split; [lia|]. split; [reflexivity|].
    split; [|split; [rewrite <- B, !kinds_app; apply whole_kinds|rewrite <- B, !kids_app; apply whole_kids]].
    intros F. apply Forall_app in F. destruct F as [F1 F2]. apply Forall_app. split; [exact F1|]. constructor; [apply gf_whole, F2|]. constructor; [|constructor]. split; [exact G|constructor].
  - cbn [b_path]. rewrite app_length. cbn [length]. lia.
  - unfold deep, depth. cbn [b_path]. rewrite A. replace (S p) with (length (lo ++ [f])) at 2 by (rewrite app_length; cbn [length]; lia). replace (lo ++ f :: r) with ((lo ++ [f]) ++ r) by (rewrite <- app_assoc; reflexivity). rewrite firstn_len, firstn_all2 by (rewrite app_length; cbn [length]; lia).
    rewrite !fold_left_app. cbn [fold_left]. rewrite within_whole. reflexivity.
Qed.
Lemma alloc_step : forall ks p s, p < length (b_path s) -> Forall gk ks ->
  wp (alloc ks p) (fun q s' => q = S p /\ grew p s [] s' /\ length (b_path s') = S (S p)) s.
Proof. intros ks p s H G. eapply wp_mono; [apply (alloc_stepi ks p s H G)|]. intros q s' (A & B & C & _). split; [exact A|]. split; [|exact C]. exists []. split; [exact B|reflexivity]. Qed.

(** The rules for computations that started at [s0] and may only add at or below [p0]. *)
Lemma wp_leaf : forall p0 s0 acc d w p s (Q : unit -> bs -> Prop), grew p0 s0 acc s -> p0 <= p -> p < length (b_path s) -> good d ->
  (forall s', grew p0 s0 (acc ++ leaves d) s' -> p < length (b_path s') -> Q tt s') -> wp (leaf_weight d w p) Q s.
Proof.
  intros p0 s0 acc d w p s Q G L P GD K. apply (wp_mono _ _ _ _ _ (leaf_step d w p s P GD)). intros [] s' (A & B). apply K; [eapply grew_trans; eassumption|lia].
Qed.
Lemma wp_alloc : forall p0 s0 acc ks p s (Q : point -> bs -> Prop), grew p0 s0 acc s -> p0 <= p -> p < length (b_path s) -> Forall gk ks ->
  (forall s', grew p0 s0 acc s' -> S p < length (b_path s') -> Q (S p) s') -> wp (alloc ks p) Q s.
Proof.
  intros p0 s0 acc ks p s Q G L P GD K. apply (wp_mono _ _ _ _ _ (alloc_step ks p s P GD)). intros q s' (-> & A & B). apply K; [|lia]. rewrite <- (app_nil_r acc). eapply grew_trans; eassumption.
Qed.
Lemma wp_minimize : forall p0 s0 acc ms p s (Q : point -> bs -> Prop), grew p0 s0 acc s -> p0 <= p -> p < length (b_path s) -> (forall id, gk (KMinimize id ms)) ->
  (forall s', grew p0 s0 acc s' -> S p < length (b_path s') -> Q (S p) s') -> wp (minimize ms p) Q s.
Proof.
  intros p0 s0 acc ms p s Q G L P GD K. unfold wp, minimize. apply (wp_alloc p0 s0 acc [KMinimize (b_id s) ms] p (Bs (b_path s) (S (b_id s)))); [exact G|exact L|exact P| |exact K]. constructor; [apply GD|constructor].
Qed.

Lemma unsoft_spec : forall lo ks w r, unsoft (length lo) (lo ++ Frame ks [Softline] w :: r) = Some (lo ++ Frame ks [] 0 :: r).
Proof. induction lo as [|f lo IH]; intros ks w r; [reflexivity|]. cbn [length app unsoft]. rewrite IH. reflexivity. Qed.

Lemma change_at : forall u lo f r, change (length lo) u (lo ++ f :: r) = Some (lo ++ u (whole f r)).
Proof. intros u lo f r. induction lo as [|g lo IH]; [reflexivity|]. cbn [length app change]. rewrite IH. reflexivity. Qed.
Lemma alloc_at : forall ks lo f r id, alloc ks (length lo) (Bs (lo ++ f :: r) id) = Some (S (length lo), Bs (lo ++ [whole f r; Frame ks [] 0]) id).
Proof. intros. unfold alloc. cbn [b_path b_id]. rewrite change_at. reflexivity. Qed.
Lemma leaf_at : forall d w lo f r id, leaf_weight d w (length lo) (Bs (lo ++ f :: r) id) = Some (tt, Bs (lo ++ [add d w (whole f r)]) id).
Proof. intros. unfold leaf_weight. cbn [b_path b_id]. rewrite change_at. reflexivity. Qed.

(** A group that starts with a soft line which is removed again under some condition. *)
Lemma wp_soft : forall p0 s0 acc ps (f : point -> M point) (c : nat -> bool) weight p s (Q : point -> bs -> Prop), grew p0 s0 acc s -> p0 <= p -> p < length (b_path s) ->
  gk KGroup -> good Softline ->
  (forall p s, p < length (b_path s) -> wp (f p) (fun q s' => p <= q < length (b_path s') /\ grew p s ps s') s) ->
  (forall q s', grew p0 s0 (acc ++ ps) s' -> p <= q < length (b_path s') -> Q q s') ->
  wp (let* dc := alloc [KGroup] p in leaf_weight Softline weight dc;; let* parent := alloc [] dc in let* concat := f parent in
      let* m := max_weight parent in (if c m then remove_soft dc else ret tt);; ret concat) Q s.
Proof.
  intros p0 s0 acc ps f c weight p s Q G L P GK GS HF K.
  destruct (change_spec (fun f => [f]) p (b_path s) P) as (lo & f0 & r0 & E & N & _).
  set (f1 := whole f0 r0). set (fr := Frame [KGroup] [Softline] weight).
  assert (G1 : grew p s [] (Bs (lo ++ [f1; fr; Frame [] [] 0]) (b_id s))).
  { exists []. split; [|reflexivity]. unfold grewi. cbn [b_path]. rewrite E. rewrite !iplv_app. change (iplv ?z [f1; fr; Frame [] [] 0]) with (iflv (within z f1) f1 ++ []). rewrite !app_nil_r. unfold f1. rewrite within_whole, iplv_whole. rewrite <- N at 1 2. rewrite !firstn_len, app_length. cbn [length].
    split; [reflexivity|]. split; [lia|]. split; [reflexivity|]. split; [|split; [rewrite <- N, !kinds_app; apply whole_kinds|rewrite <- N, !kids_app; apply whole_kids]]. intros F. apply Forall_app in F. destruct F as [F1 F2]. apply Forall_app. split; [exact F1|]. constructor; [apply gf_whole, F2|]. constructor; [split; [constructor; [exact GK|constructor]|constructor; [exact GS|constructor]]|]. constructor; [split; constructor|constructor]. }
  destruct s as [path id]. cbn [b_path b_id] in *. subst path. apply wp_bnd. unfold wp at 1. rewrite <- N, alloc_at. fold f1. replace (lo ++ [f1; Frame [KGroup] [] 0]) with ((lo ++ [f1]) ++ Frame [KGroup] [] 0 :: []) by (rewrite <- app_assoc; reflexivity).
  replace (S (length lo)) with (length (lo ++ [f1])) by (rewrite app_length; cbn [length]; lia).
  apply wp_bnd. unfold wp at 1. rewrite leaf_at. replace (add Softline weight (whole (Frame [KGroup] [] 0) [])) with fr by (unfold fr, add; cbn [whole f_kinds f_kids f_max]; rewrite Nat.max_0_r; reflexivity).
  apply wp_bnd. unfold wp at 1. rewrite alloc_at. cbn [whole].
  apply wp_bnd. set (s3 := Bs ((lo ++ [f1]) ++ [fr; Frame [] [] 0]) id). assert (E3 : Bs (lo ++ [f1; fr; Frame [] [] 0]) id = s3) by (unfold s3; rewrite <- app_assoc; reflexivity). rewrite E3 in G1.
  assert (P3 : S (length (lo ++ [f1])) < length (b_path s3)) by (unfold s3; cbn [b_path]; rewrite !app_length; cbn [length]; lia).
  apply (wp_mono _ _ _ _ _ (HF _ _ P3)). intros q s4 (Q4 & G4).
  assert (G5 : grew p0 s0 (acc ++ ps) s4). { rewrite <- (app_nil_r acc). eapply grew_trans; [eapply grew_trans; [exact G|exact L|exact G1]| |exact G4]. rewrite app_length. cbn [length]. lia. }
  assert (E4 : exists g4 r4, b_path s4 = (lo ++ [f1]) ++ fr :: g4 :: r4).
  { destruct G4 as (ips4 & (G4 & G4' & _) & _). replace (S (length (lo ++ [f1]))) with (length ((lo ++ [f1]) ++ [fr])) in G4, G4' by (rewrite !app_length; cbn [length]; lia).
    unfold s3 in G4. cbn [b_path] in G4. replace ((lo ++ [f1]) ++ [fr; Frame [] [] 0]) with (((lo ++ [f1]) ++ [fr]) ++ [Frame [] [] 0]) in G4 by (rewrite <- app_assoc; reflexivity). rewrite firstn_len in G4.
    rewrite <- (firstn_skipn (length ((lo ++ [f1]) ++ [fr])) (b_path s4)), G4. destruct (skipn (length ((lo ++ [f1]) ++ [fr])) (b_path s4)) as [|g4 r4] eqn:Z.
    - exfalso. apply (f_equal (@length frame)) in Z. rewrite skipn_length in Z. cbn [length] in Z. lia.
    - exists g4, r4. rewrite <- app_assoc. reflexivity. }
  destruct E4 as (g4 & r4 & E4). apply wp_bnd. unfold wp at 1, max_weight.
  assert (Z : skipn (S (length (lo ++ [f1]))) (b_path s4) = g4 :: r4).
  { rewrite E4. replace (S (length (lo ++ [f1]))) with (length ((lo ++ [f1]) ++ [fr])) by (rewrite !app_length; cbn [length]; lia). replace ((lo ++ [f1]) ++ fr :: g4 :: r4) with (((lo ++ [f1]) ++ [fr]) ++ g4 :: r4) by (rewrite <- app_assoc; reflexivity). rewrite skipn_app, skipn_all, Nat.sub_diag. reflexivity. }
  rewrite Z. apply wp_bnd.
  assert (Q4' : p <= q) by (rewrite app_length in Q4; cbn [length] in Q4; lia).
  destruct (c (f_max (whole g4 r4))); [|apply wp_ret, wp_ret, K; [exact G5|split; [exact Q4'|apply Q4]]].
  unfold wp at 1, remove_soft. rewrite E4. unfold fr. rewrite unsoft_spec. apply wp_ret. apply K.
  - destruct G5 as (ips5 & (A1 & A2 & A3 & A4 & A6 & A5) & EP). exists ips5. split; [|exact EP]. rewrite E4 in *. unfold grewi. cbn [b_path]. split; [|split; [|split; [|split; [|split]]]].
    + rewrite <- A1. assert (W : p0 <= length (lo ++ [f1])) by (rewrite app_length; lia). rewrite !(firstn_app p0 (lo ++ [f1])). replace (p0 - length (lo ++ [f1])) with 0 by lia. reflexivity.
    + rewrite !app_length in *. cbn [length] in *. exact A2.
    + rewrite <- A3, !iplv_app. reflexivity.
    + intros F. specialize (A4 F). apply Forall_app in A4. destruct A4 as [B1 B2]. apply Forall_app. split; [exact B1|]. inversion B2 as [|? ? [C1 C2] B3]; subst. constructor; [split; [exact C1|constructor]|exact B3].
    + rewrite <- A6. assert (W : p0 < length (lo ++ [f1])) by (rewrite app_length; cbn [length]; lia). unfold kinds_at. rewrite !(nth_error_app1 (lo ++ [f1])) by exact W. reflexivity.
    + destruct A5 as [new A5]. exists new. rewrite <- A5. assert (W : p0 < length (lo ++ [f1])) by (rewrite app_length; cbn [length]; lia). unfold kids_at. rewrite !(nth_error_app1 (lo ++ [f1])) by exact W. reflexivity.
  - split; [exact Q4'|]. cbn [b_path]. destruct Q4 as [_ Q4]. rewrite E4 in Q4. rewrite !app_length in *. cbn [length] in *. exact Q4.
Qed.

(** Something added, more after it, and then the first removed again. *)
Lemma wp_mark : forall p s (Q : nat -> bs -> Prop), p < length (b_path s) ->
  (forall lo f r, b_path s = lo ++ f :: r -> length lo = p -> Q (length (f_kids (whole f r))) s) -> wp (mark p) Q s.
Proof.
  intros p s Q P H. destruct (change_spec (fun f => [f]) p (b_path s) P) as (lo & f & r & A & B & _). unfold wp, mark.
  replace (skipn p (b_path s)) with (f :: r) by (rewrite A, <- B, skipn_app, Nat.sub_diag, skipn_all; reflexivity). exact (H lo f r A B).
Qed.
Lemma cut_at : forall {A} (n k : list A) d, cut (length k) (n ++ d :: k) = n ++ k.
Proof.
  intros A n k d. unfold cut. rewrite app_length. cbn [length]. replace (length n + S (length k) - S (length k)) with (length n) by lia. replace (length n + S (length k) - length k) with (S (length n)) by lia.
  rewrite firstn_app, Nat.sub_diag, firstn_all. cbn [firstn]. rewrite app_nil_r. f_equal. rewrite skipn_app, skipn_all2 by lia. replace (S (length n) - length n) with 1 by lia. reflexivity.
Qed.
Lemma wp_remove : forall d w p s ps (Q : unit -> bs -> Prop) lo f r s1 s2, good d ->
  b_path s = lo ++ f :: r -> length lo = p -> leaf_weight d w p s = Some (tt, s1) -> grewi p s1 ps s2 ->
  (forall s', grewi p s ps s' -> Q tt s') -> wp (remove_at p (length (f_kids (whole f r)))) Q s2.
Proof.
  intros d w p s ps Q lo f r s1 s2 GD E N LF (H1 & H2 & H3 & H4 & H6 & new & H5) K.
  destruct s as [path id]. cbn [b_path] in E. subst path p. rewrite leaf_at in LF. inversion LF; subst s1; clear LF. cbn [b_path] in *. rewrite kids_app in H5. rewrite kinds_app in H6. cbn [add f_kids f_kinds] in H5, H6. rewrite firstn_len in H1.
  unfold wp, remove_at. destruct (change_spec (fun f0 => [Frame (f_kinds f0) (cut (length (f_kids (whole f r))) (f_kids f0)) (f_max f0)]) (length lo) (b_path s2) H2) as (lo' & g & r' & A & B & C). rewrite C.
  assert (lo' = lo) by (rewrite A in H1; rewrite <- B, firstn_len in H1; exact H1). subst lo'. rewrite A in *. rewrite kids_app in H5. rewrite kinds_app in H6. clear C B H1 H2.
  destruct (whole_kids r' g) as [n2 W2]. rewrite H5 in W2. set (K0 := f_kids (whole f r)) in *. rewrite W2, app_assoc, cut_at.
  set (z := fold_left within lo 0%Z) in *. assert (ZE : within z g = within z f) by (unfold within; rewrite H6, whole_kinds; reflexivity).
  rewrite !iplv_app in H3. fold z in H3. rewrite iplv_one in H3. change (within z (add d w (whole f r))) with (within z (whole f r)) in H3. rewrite within_whole, iflv_add, iplv_whole, <- app_assoc in H3. apply app_inv_head in H3. rewrite <- (iplv_whole r' g z) in H3. rewrite ZE in H3. unfold iflv at 1 in H3. rewrite W2, app_assoc, rev_app_distr in H3. cbn [rev] in H3. rewrite <- app_assoc in H3. rewrite !flat_map_app in H3.
  assert (E0 : iplv z (f :: r) = flat_map (ileaves (within z f)) (rev K0)) by (rewrite <- iplv_whole; reflexivity). rewrite E0, <- app_assoc in H3. apply app_inv_head in H3. cbn [flat_map] in H3. rewrite app_nil_r in H3. apply app_inv_head in H3.
  apply K. unfold grewi. cbn [b_path]. rewrite !firstn_len, app_length. cbn [length]. split; [reflexivity|]. split; [lia|]. split; [|split; [|split]].
  - rewrite !iplv_app, iplv_one. fold z. rewrite E0. unfold within at 1. cbn [f_kinds]. rewrite whole_kinds, H6, whole_kinds. fold (within z f). unfold iflv. cbn [f_kids]. rewrite rev_app_distr, flat_map_app, H3, app_assoc. reflexivity.
  - intros F. assert (F' : Forall gf (lo ++ [add d w (whole f r)])).
    { apply Forall_app in F. destruct F as [F1 F2]. apply Forall_app. split; [exact F1|]. constructor; [|constructor]. apply gf_add; [exact GD|apply gf_whole, F2]. }
    apply H4 in F'. apply Forall_app in F'. destruct F' as [F1 F2]. apply Forall_app. split; [exact F1|]. constructor; [|constructor]. apply gf_whole in F2. destruct F2 as [F2 F3]. split; [exact F2|]. cbn [f_kids].
    rewrite W2, app_assoc in F3. apply Forall_app in F3. destruct F3 as [F3 F4]. inversion F4; subst. apply Forall_app. split; assumption.
  - rewrite !kinds_app. cbn [f_kinds]. rewrite whole_kinds, H6. apply whole_kinds.
  - rewrite !kids_app. cbn [f_kids]. destruct (whole_kids r f) as [n3 W3]. exists ((n2 ++ new) ++ n3). unfold K0. rewrite W3, app_assoc. reflexivity.
Qed.
End Good.
