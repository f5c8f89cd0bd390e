(** Reading the configuration: C50 (integers) and C51 (options not known). *)
From Coq Require Import ZArith.
From Verif Require Import Base StrModel UtilModel TokenModel LexModel LexSpec LexRefine YamlModel YamlProofs.

(** ** Specification *)
(** The value an option takes from the token after its colon, none if it is not one of its values. *)
Definition word_of (v : ytok) : string := match y_type v with Kw s => s | _ => "" end.
Definition is_int (v : ytok) : bool := ytype_eqb (y_type v) Integer.
Definition among (v : ytok) (l : list string) : bool := match y_type v with Kw s => existsb (String.eqb s) l | _ => false end.
Definition takes (so : sopt) (v : ytok) : option sval :=
  match so_parse so with
  | Some PEnum | Some PBasedOnStyle => if among v (so_val so) then Some (VKw (word_of v)) else None
  | Some PBool => if among v ["True"; "False"]%string then Some (VKw (word_of v)) else None
  | Some PInteger => if is_int v then Some (VInt (y_int v mod 2 ^ 32)%Z) else None
  | Some PColumnLimit => if is_int v then Some (VInt (if (y_int v mod 2 ^ 32 =? 0)%Z then 2 ^ 32 - 1 else y_int v mod 2 ^ 32)%Z) else None
  | Some PIncludeGuards => if is_int v then Some (VInt (y_int v mod 2 ^ 32)%Z) else None
  | Some PAlignOperands =>
      if among v (so_val so) then
        Some (VKw (if String.eqb (word_of v) "True" then "Align"%string else if String.eqb (word_of v) "False" then "DontAlign"%string else word_of v))
      else None
  | _ => None
  end.

(** A configuration is a sequence of items. *)
Inductive item :=
| Opt (so : sopt) (v : ytok)                       (* Option: value *)
| Other (k : ytok) (colon : bool) (v : ytok)       (* Unknown: value *)
| OtherSeq (k : ytok) (vs : list ytok)             (* Unknown: - value - value *)
| Head (so : sopt)                                 (* BraceWrapping: *)
| Mark (b : bool).                                 (* --- or ... *)
Definition tcolon : ytok := YTok Colon None 0 (s2b ":").
Definition tdash : ytok := YTok Sequence None 0 (s2b "-").
Definition topt (so : sopt) : ytok := YTok (so_type so) (Some so) 0 (s2b (so_key so)).
Definition tmark (b : bool) : ytok := if b then YTok DocumentBegin None 0 (s2b "---") else YTok DocumentEnd None 0 (s2b "...").
Definition toks (i : item) : list ytok :=
  match i with
  | Opt so v => [topt so; tcolon; v]
  | Other k true v => [k; tcolon; v]
  | Other k false v => [k; v]
  | OtherSeq k vs => k :: tcolon :: flat_map (fun v => [tdash; v]) vs
  | Head so => [topt so; tcolon]
  | Mark b => [tmark b]
  end.
(** What may follow a colon or a dash. *)
Definition plain (v : ytok) : Prop := y_type v <> YEof /\ y_type v <> Sequence /\ y_type v <> DocumentBegin /\ y_type v <> Kw "Language"%string.
Definition unknown_key (k : ytok) : Prop := y_so k = None /\ plain k /\ y_type k <> DocumentEnd.
Section Spec.
Variable e : env.
Definition plain_option (so : sopt) (v : ytok) : Prop :=
  match so_parse so with
  | Some PEnum => so_key so = "Language"%string -> y_type v = Kw "Cpp"%string
  | Some PBool | Some PInteger | Some PColumnLimit | Some PAlignOperands => True
  | Some PIncludeGuards => is_int v = true -> (0 < y_int v)%Z
  (* styles clang-format is not asked for *)
  | Some PBasedOnStyle => among v (so_val so) = true -> word_of v = "OpenBSD"%string \/ word_of v = "InheritParentConfig"%string \/ e_dump e (word_of v) = None
  | _ => False
  end.
(** Well-formed with the scope [sc]: an option with a scope follows its parent. *)
Definition item_ok (sc : option string) (i : item) : Prop :=
  match i with
  | Opt so v => In so sopts /\ plain_option so v /\ plain v /\ (so_scope so = None \/ so_scope so = sc)
  | Other k c v => unknown_key k /\ plain v /\ (c = false -> y_type v <> Colon)
  | OtherSeq k vs => unknown_key k /\ vs <> [] /\ Forall plain vs
  | Head so => In so sopts /\ so_parse so = Some PNested
  | Mark _ => True
  end.
Definition next_scope (sc : option string) (i : item) : option string :=
  match i with Opt so _ => so_scope so | Head so => Some (so_key so) | _ => sc end.
Fixpoint items_ok (sc : option string) (l : list item) : Prop :=
  match l with [] => True | i :: r => item_ok sc i /\ items_ok (next_scope sc i) r end.
End Spec.
(** The last value an option takes. *)
Definition setting (k : string) (i : item) : option sval :=
  match i with Opt so v => if String.eqb (so_key so) k then takes so v else None | _ => None end.
Fixpoint final (k : string) (l : list item) (dflt : sval) : sval :=
  match l with [] => dflt | i :: r => final k r (match setting k i with Some v => v | None => dflt end) end.

(** ** Proofs *)
Definition upd (i : item) (st st' : style) : Prop :=
  (forall k, st_val st' k = match setting k i with Some v => v | None => st_val st k end) /\ st_scope st' = st_scope st /\ st_cats st' = st_cats st.
Definition all_toks (l : list item) : list ytok := flat_map toks l ++ [eof_tok].

Lemma lexer_if_hd : forall t r st ty, y_type t <> YEof -> lexer_if ty (PState (t :: r) st) = if ytype_eqb (y_type t) ty then Some (t, PState r st) else None.
Proof.
  intros t r st ty H. unfold lexer_if, pop. cbn [p_rest p_style]. replace (ytype_eqb (y_type t) YEof) with false; auto.
  symmetry. destruct (y_type t); auto. congruence.
Qed.
Lemma ytype_eqb_eq : forall a b, ytype_eqb a b = true <-> a = b.
Proof.
  intros a b. split; [|intros <-; destruct a; cbn; auto; apply String.eqb_refl].
  destruct a, b; cbn; intros H; try discriminate; auto. apply String.eqb_eq in H. congruence.
Qed.
Lemma if_any_hd : forall l v r st, y_type v <> YEof -> if_any l (PState (v :: r) st) = if among v l then Some (v, PState r st) else None.
Proof.
  induction l as [|x l IH]; intros v r st HV; cbn [if_any]; [unfold among; destruct (y_type v); auto|].
  rewrite lexer_if_hd by auto. rewrite IH by auto. unfold among. destruct (y_type v) as [s| | | | | | | |]; cbn [ytype_eqb]; auto.
  cbn [existsb]. destruct (String.eqb s x); auto.
Qed.
Lemma pop_hd : forall t r st, y_type t <> YEof -> pop (PState (t :: r) st) = (t, PState r st).
Proof. intros t r st H. unfold pop. cbn [p_rest p_style]. destruct (ytype_eqb (y_type t) YEof) eqn:E; auto. apply ytype_eqb_eq in E. congruence. Qed.
Lemma upd_refl : forall so v st, takes so v = None -> upd (Opt so v) st st.
Proof. intros so v st H. split; [|auto]. intros k. cbn [setting]. destruct (String.eqb (so_key so) k); auto. rewrite H. auto. Qed.
Lemma upd_set : forall so v st x, takes so v = Some x -> upd (Opt so v) st (style_set (so_key so) x st).
Proof.
  intros so v st x H. split; [|auto]. intros k. cbn [setting style_set st_val]. rewrite String.eqb_sym. destruct (String.eqb (so_key so) k); auto. rewrite H. auto.
Qed.
Lemma word_kw : forall v l, among v l = true -> kw_val v = VKw (word_of v) /\ In (word_of v) l.
Proof.
  intros v l H. unfold among in H. unfold kw_val, word_of. destruct (y_type v); try discriminate. split; auto. apply existsb_exists in H as (x & Hx & E). apply String.eqb_eq in E. congruence.
Qed.
Lemma table_facts : Forall (fun so => so_parse so <> None -> so_type so = Kw (so_key so)) sopts.
Proof. repeat constructor; cbn; intros; try congruence; reflexivity. Qed.

Section Parse.
Variable e : env.
Variable based : option (bytes -> style -> option (bool * style)).

(** An option with a plain value. *)
Lemma run_option : forall fuel doc so v r st fn, In so sopts -> so_parse so = Some fn -> plain_option e so v -> plain v ->
  exists res st', run_parse e based fuel doc fn so (PState (topt so :: tcolon :: v :: r) st) = Some (res, PState r st') /\ (res = GOOD \/ res = SKIP) /\ upd (Opt so v) st st'.
Proof.
  intros fuel doc so v r st fn HT HF HO (HV & _). pose proof table_facts as TF. rewrite Forall_forall in TF. specialize (TF so HT ltac:(congruence)).
  assert (K : forall A (a b : A), match lexer_if (Kw (so_key so)) (PState (topt so :: tcolon :: v :: r) st) with None => a | Some (_, p) => match lexer_if Colon p with None => a | Some (_, p) => b end end = b).
  { intros. rewrite lexer_if_hd by (cbn [topt y_type]; congruence). cbn [topt y_type]. rewrite TF. cbn [ytype_eqb]. rewrite String.eqb_refl.
    rewrite lexer_if_hd by discriminate. reflexivity. }
  assert (KV : forall vals, parse_values vals (so_key so) (PState (topt so :: tcolon :: v :: r) st) =
     if among v vals then (GOOD, PState r (style_set (so_key so) (VKw (word_of v)) st)) else (SKIP, PState r st)).
  { intros vals. unfold parse_values. rewrite lexer_if_hd by (cbn [topt y_type]; congruence). cbn [topt y_type]. rewrite TF. cbn [ytype_eqb]. rewrite String.eqb_refl.
    rewrite lexer_if_hd by discriminate. cbn [ytype_eqb tcolon y_type]. rewrite if_any_hd by auto. destruct (among v vals) eqn:EA.
    - destruct (word_kw _ _ EA) as (-> & _). reflexivity.
    - rewrite pop_hd by auto. reflexivity. }
  assert (KI : parse_integer_impl (so_key so) (PState (topt so :: tcolon :: v :: r) st) = if is_int v then (GOOD, y_int v, PState r st) else (SKIP, 0%Z, PState r st)).
  { unfold parse_integer_impl. rewrite lexer_if_hd by (cbn [topt y_type]; congruence). cbn [topt y_type]. rewrite TF. cbn [ytype_eqb]. rewrite String.eqb_refl.
    rewrite lexer_if_hd by discriminate. cbn [ytype_eqb tcolon y_type]. rewrite lexer_if_hd by auto. unfold is_int. destruct (ytype_eqb (y_type v) Integer); auto.
    rewrite pop_hd by auto. reflexivity. }
  clear K. unfold plain_option in HO. rewrite HF in HO. destruct fn; try contradiction; cbn [run_parse].
  - unfold parse_enum. rewrite KV. destruct (among v (so_val so)) eqn:EA; eexists _, _; (split; [reflexivity|]); (split; [auto|]).
    + apply upd_set. unfold takes. rewrite HF, EA. auto.
    + apply upd_refl. unfold takes. rewrite HF, EA. auto.
  - unfold parse_bool. rewrite KV. destruct (among v ["True"; "False"]%string) eqn:EA; eexists _, _; (split; [reflexivity|]); (split; [auto|]).
    + apply upd_set. unfold takes. rewrite HF, EA. auto.
    + apply upd_refl. unfold takes. rewrite HF, EA. auto.
  - unfold parse_integer. rewrite KI. destruct (is_int v) eqn:EA; eexists _, _; (split; [reflexivity|]); (split; [auto|]).
    + apply upd_set. unfold takes. rewrite HF, EA. auto.
    + apply upd_refl. unfold takes. rewrite HF, EA. auto.
  - assert (EK : so_key so = "AlignOperands"%string).
    { assert (X : Forall (fun so => so_parse so = Some PAlignOperands -> so_key so = "AlignOperands"%string) sopts) by (repeat constructor; cbn; intros; try discriminate; auto). rewrite Forall_forall in X. auto. }
    unfold parse_AlignOperands, parse_enum. rewrite KV. destruct (among v (so_val so)) eqn:EA.
    + cbn [p_style style_set st_val]. rewrite EK. rewrite String.eqb_refl.
      assert (CASES2 : forall w (A : Type) (a b c : A), (match VKw w with VKw "True" => a | VKw "False" => b | _ => c end) = if String.eqb w "True" then a else if String.eqb w "False" then b else c).
      { intros w A a b c. destruct (String.eqb_spec w "True") as [->|N1]; auto. destruct (String.eqb_spec w "False") as [->|N2]; auto.
        repeat (match goal with |- context [match ?x with _ => _ end] => is_var x; destruct x; auto end); congruence. }
      rewrite CASES2. clear CASES2.
      exists GOOD. destruct (String.eqb (word_of v) "True") eqn:E1; [|destruct (String.eqb (word_of v) "False") eqn:E2]; (eexists; split; [reflexivity|]); (split; [auto|]); (split; [|auto]); intros k; cbn [setting];
        unfold takes; rewrite HF, EA, ?E1, ?E2, EK; cbn [style_set st_val with_style p_style]; rewrite String.eqb_sym; destruct (String.eqb "AlignOperands" k) eqn:EQ; auto.
    + eexists _, _; (split; [reflexivity|]); (split; [auto|]). apply upd_refl. unfold takes. rewrite HF, EA. auto.
  - unfold parse_BasedOnStyle, parse_enum. rewrite KV.
    assert (EK : so_key so = "BasedOnStyle"%string).
    { assert (X : Forall (fun so => so_parse so = Some PBasedOnStyle -> so_key so = "BasedOnStyle"%string) sopts) by (repeat constructor; cbn; intros; try discriminate; auto). rewrite Forall_forall in X. auto. }
    destruct (among v (so_val so)) eqn:EA.
    + specialize (HO eq_refl).
      assert (U : upd (Opt so v) st (style_set (so_key so) (VKw (word_of v)) st)) by (apply upd_set; unfold takes; rewrite HF, EA; auto).
      destruct based as [f|]; [|eexists _, _; split; [reflexivity|]; split; auto].
      cbn [p_style style_set st_val]. rewrite EK, String.eqb_refl. rewrite EK in U. destruct HO as [HO|[HO|HO]].
      * rewrite HO. cbn [String.eqb Ascii.eqb Bool.eqb orb]. rewrite <- HO. eexists _, _; split; [reflexivity|]; split; auto.
      * rewrite HO. cbn [String.eqb Ascii.eqb Bool.eqb orb]. rewrite <- HO. eexists _, _; split; [reflexivity|]; split; auto.
      * destruct (_ || _); [eexists _, _; split; [reflexivity|]; split; auto|]. rewrite HO. eexists _, _; split; [reflexivity|]; split; auto.
    + eexists _, _; (split; [reflexivity|]); (split; [auto|]). apply upd_refl. unfold takes. rewrite HF, EA. auto.
  - assert (EK : so_key so = "ColumnLimit"%string).
    { assert (X : Forall (fun so => so_parse so = Some PColumnLimit -> so_key so = "ColumnLimit"%string) sopts) by (repeat constructor; cbn; intros; try discriminate; auto). rewrite Forall_forall in X. auto. }
    unfold parse_ColumnLimit, parse_integer. rewrite KI. destruct (is_int v) eqn:EA.
    + cbn [p_style with_style style_set st_val]. rewrite EK, String.eqb_refl. exists GOOD. unfold u32. 
      assert (T : takes so v = Some (VInt (if (y_int v mod 2 ^ 32 =? 0)%Z then 2 ^ 32 - 1 else y_int v mod 2 ^ 32)%Z)) by (unfold takes; rewrite HF, EA; auto).
      destruct (y_int v mod 2 ^ 32)%Z eqn:EM; (eexists; split; [reflexivity|]); (split; [auto|]); (split; [|auto]); intros k; cbn [setting style_set st_val p_style]; rewrite EK, T, String.eqb_sym;
        destruct (String.eqb "ColumnLimit" k) eqn:EQ; auto.
    + eexists _, _; (split; [reflexivity|]); (split; [auto|]). apply upd_refl. unfold takes. rewrite HF, EA. auto.
  - unfold parse_IncludeGuards. rewrite KI. destruct (is_int v) eqn:EA.
    + specialize (HO eq_refl). replace (y_int v <=? 0)%Z with false by (symmetry; apply Z.leb_gt; auto). eexists _, _; (split; [reflexivity|]); (split; [auto|]).
      apply upd_set. unfold takes. rewrite HF, EA. auto.
    + eexists _, _; (split; [reflexivity|]); (split; [auto|]). apply upd_refl. unfold takes. rewrite HF, EA. auto.
Qed.

(** The language of what is left. *)
Lemma lang_skip : forall t r, y_type t <> YEof -> y_type t <> DocumentBegin -> y_type t <> Kw "Language"%string -> doc_language (t :: r) = doc_language r.
Proof.
  intros t r H1 H2 H3. cbn [doc_language].
  destruct (ytype_eqb (y_type t) YEof) eqn:E1; [apply ytype_eqb_eq in E1; congruence|].
  destruct (ytype_eqb (y_type t) DocumentBegin) eqn:E2; [apply ytype_eqb_eq in E2; congruence|].
  destruct (ytype_eqb (y_type t) (Kw "Language")) eqn:E3; [apply ytype_eqb_eq in E3; congruence|]. auto.
Qed.
Lemma lang_plain : forall t r, plain t -> doc_language (t :: r) = doc_language r.
Proof. intros t r (H1 & H2 & H3 & H4). apply lang_skip; auto. Qed.
Lemma lang_ok : forall l sc, items_ok e sc l -> doc_language (all_toks l) = Kw "None"%string \/ doc_language (all_toks l) = Kw "Cpp"%string.
Proof.
  unfold all_toks. induction l as [|i l IH]; intros sc HO; cbn [flat_map app]; [left; reflexivity|]. cbn [items_ok] in HO. destruct HO as (HI & HO). specialize (IH _ HO).
  rewrite <- app_assoc. set (rest := flat_map toks l ++ [eof_tok]) in *.
  pose proof table_facts as TF. rewrite Forall_forall in TF.
  destruct i as [so v|k c v|k vs|so|b]; cbn [item_ok toks] in *.
  - destruct HI as (H1 & H2 & H3 & _). cbn [app].
    assert (HP : so_parse so <> None) by (unfold plain_option in H2; destruct (so_parse so); [discriminate|contradiction]).
    specialize (TF so H1 HP). destruct (String.eqb_spec (so_key so) "Language") as [EK|EK].
    + assert (X : Forall (fun so => so_key so = "Language"%string -> so_parse so = Some PEnum) sopts) by (repeat constructor; cbn; intros; try discriminate; auto).
      rewrite Forall_forall in X. unfold plain_option in H2. rewrite (X so H1 EK) in H2. specialize (H2 EK).
      right. cbn [doc_language topt y_type]. rewrite TF, EK. cbn [ytype_eqb String.eqb Ascii.eqb Bool.eqb tcolon y_type]. auto.
    + rewrite lang_skip; [| | |]; try (cbn [topt y_type]; rewrite TF; congruence).
      rewrite lang_skip by discriminate. rewrite lang_plain; auto.
  - destruct HI as ((_ & H1 & _) & H2 & _). destruct c; cbn [app]; rewrite lang_plain by auto; [rewrite lang_skip by discriminate|]; rewrite lang_plain; auto.
  - destruct HI as ((_ & H1 & _) & _ & H2). cbn [app]. rewrite lang_plain by auto. rewrite lang_skip by discriminate.
    clear H1. induction vs as [|v vs IHv]; cbn [flat_map app]; auto. inv H2. rewrite lang_skip by discriminate. rewrite lang_plain; auto.
  - destruct HI as (H1 & H2). specialize (TF so H1 ltac:(congruence)).
    assert (X : Forall (fun so => so_parse so = Some PNested -> so_key so <> "Language"%string) sopts) by (repeat constructor; cbn; intros; discriminate).
    rewrite Forall_forall in X. specialize (X so H1 H2). cbn [app]. rewrite lang_skip; [| | |]; try (cbn [topt y_type]; rewrite TF; congruence).
    rewrite lang_skip by discriminate. auto.
  - cbn [app]. destruct b; [left; reflexivity|]. rewrite lang_skip by discriminate. auto.
Qed.

(** What is left after an unknown option. *)
Lemma skip_sequences_at : forall vs fuel r st, Forall plain vs -> (match r with [] => False | t :: _ => y_type t <> Sequence end) -> length vs <= fuel ->
  skip_sequences fuel (PState (flat_map (fun v => [tdash; v]) vs ++ r) st) = PState r st.
Proof.
  induction vs as [|v vs IH]; intros fuel r st HF HR Hf; cbn [flat_map app].
  - destruct fuel; auto. cbn [skip_sequences]. destruct r as [|t r]; [contradiction|].
    unfold lexer_if, pop. cbn [p_rest]. destruct (ytype_eqb (y_type t) Sequence) eqn:E; auto. apply ytype_eqb_eq in E. congruence.
  - inv HF. destruct fuel as [|f]; [cbn [length] in Hf; lia|]. cbn [skip_sequences]. rewrite lexer_if_hd by discriminate. cbn [tdash y_type ytype_eqb].
    rewrite pop_hd by apply H1. cbn [snd]. apply IH; auto. cbn [length] in Hf. lia.
Qed.
(** The next item starts with no dash. *)
Lemma next_tok : forall l sc, items_ok e sc l -> match all_toks l with [] => False | t :: _ => y_type t <> Sequence end.
Proof.
  intros [|i l] sc HO; [discriminate|]. unfold all_toks. cbn [flat_map]. destruct HO as (HI & _).
  pose proof table_facts as TF. rewrite Forall_forall in TF.
  destruct i as [so v|k c v|k vs|so|b]; cbn [item_ok toks] in *.
  - destruct HI as (H1 & H2 & _). cbn [app topt y_type]. rewrite TF; auto; [discriminate|]. unfold plain_option in H2. destruct (so_parse so); [discriminate|contradiction].
  - destruct HI as ((_ & H1 & _) & _). destruct c; cbn [app]; apply H1.
  - destruct HI as ((_ & H1 & _) & _). cbn [app]; apply H1.
  - destruct HI as (H1 & H2). cbn [app topt y_type]. rewrite TF; auto; [discriminate|congruence].
  - destruct b; discriminate.
Qed.

Definition peeks (p : pstate) (t : ytok) : Prop := fst (pop p) = t /\ y_type t <> YEof.
Lemma peek_no : forall ty t r st, y_type t <> YEof -> y_type t <> ty -> lexer_if ty (PState (t :: r) st) = None.
Proof. intros ty t r st H1 H2. rewrite lexer_if_hd by auto. destruct (ytype_eqb (y_type t) ty) eqn:E; auto. apply ytype_eqb_eq in E. congruence. Qed.

(** One item, in its scope. *)
Definition in_scope (sc : option string) (i : item) : Prop :=
  match i with Opt so _ => so_scope so = sc | Head _ => False | _ => True end.
Lemma step_item : forall i l fuel nested sc st, item_ok e sc i -> items_ok e (next_scope sc i) l -> in_scope sc i -> st_scope st = sc ->
  (nested = false -> items_ok e sc (i :: l)) ->
  exists st', documents e based (S fuel) nested (PState (all_toks (i :: l)) st) = documents e based fuel nested (PState (all_toks l) st') /\ upd i st st'.
Proof.
  intros i l fuel nested sc st HI HO HS HSC HN. cbn [documents].
  assert (LANG : negb nested && negb (ytype_eqb (doc_language (p_rest (PState (all_toks (i :: l)) st))) (Kw "None") || ytype_eqb (doc_language (p_rest (PState (all_toks (i :: l)) st))) (Kw "Cpp")) = false).
  { destruct nested; auto. cbn [negb andb p_rest]. destruct (lang_ok _ _ (HN eq_refl)) as [X|X]; rewrite X; reflexivity. }
  rewrite LANG. clear LANG. pose proof (next_tok l _ HO) as NT.
  pose proof table_facts as TF. rewrite Forall_forall in TF.
  unfold all_toks in *. cbn [flat_map]. rewrite <- app_assoc. set (rest := flat_map toks l ++ [eof_tok]) in *.
  assert (NOP : forall t r ty, y_type t <> YEof -> y_type t <> ty -> peek_if ty (PState (t :: r) st) = false) by (intros; unfold peek_if; rewrite peek_no; auto).
  assert (UPD : forall i st, (forall k, setting k i = None) -> upd i st st) by (intros i0 st0 H; split; [intros k; rewrite H; auto|auto]).
  destruct i as [so v|k c v|k vs|so|b]; cbn [item_ok toks in_scope] in *.
  - destruct HI as (H1 & H2 & H3 & H4). cbn [app].
    assert (HP : so_parse so <> None) by (unfold plain_option in H2; destruct (so_parse so); [discriminate|contradiction]).
    specialize (TF so H1 HP). assert (TY : y_type (topt so) = Kw (so_key so)) by (cbn [topt y_type]; auto).
    rewrite NOP by congruence. rewrite NOP by congruence. rewrite peek_no by congruence. rewrite peek_no by congruence.
    rewrite pop_hd by congruence. cbn [fst topt y_so p_style]. rewrite HSC, HS. replace (scope_eqb sc sc) with true by (destruct sc; cbn; auto; rewrite String.eqb_refl; auto). cbn [negb].
    destruct (so_parse so) as [fn|] eqn:EF; [|congruence].
    destruct (run_option fuel (documents e based fuel true) so v rest st fn H1 EF H2 H3) as (res & st' & ER & HR & HU). fold (topt so). rewrite ER.
    exists st'. split; auto. destruct HR as [ -> | -> ]; auto.
  - destruct HI as ((K0 & K1 & K2) & H2 & H3).
    assert (E : exists r, (if c then [k; tcolon; v] else [k; v]) = k :: r) by (destruct c; eauto). 
    exists st. split; [|apply UPD; auto].
    destruct c; cbn [app]; (rewrite NOP by (apply K1 || apply K1)); (rewrite NOP by apply K1); (rewrite peek_no by apply K1); (rewrite peek_no by (apply K1 || auto)); (rewrite pop_hd by apply K1); cbn [fst]; rewrite K0; f_equal; unfold skip_unknown;
      (rewrite pop_hd by apply K1); cbn [snd].
    + rewrite lexer_if_hd by discriminate. cbn [tcolon y_type ytype_eqb]. unfold peek_if. rewrite peek_no by apply H2. rewrite pop_hd by apply H2. auto.
    + rewrite peek_no by (apply H2 || auto). unfold peek_if. rewrite peek_no by apply H2. rewrite pop_hd by apply H2. auto.
  - destruct HI as ((K0 & K1 & K2) & H2 & H3). cbn [app]. exists st. split; [|apply UPD; auto].
    rewrite NOP by apply K1. rewrite NOP by apply K1. rewrite peek_no by apply K1. rewrite peek_no by (apply K1 || auto). rewrite pop_hd by apply K1. cbn [fst]. rewrite K0. f_equal. unfold skip_unknown.
    rewrite pop_hd by apply K1. cbn [snd]. rewrite lexer_if_hd by discriminate. cbn [tcolon y_type ytype_eqb].
    destruct vs as [|v vs]; [congruence|]. unfold peek_if. cbn [flat_map app]. rewrite lexer_if_hd by discriminate. cbn [tdash y_type ytype_eqb].
    change (tdash :: v :: flat_map (fun v => [tdash; v]) vs ++ rest) with (flat_map (fun v => [tdash; v]) (v :: vs) ++ rest). apply skip_sequences_at; auto.
    cbn [p_rest]. rewrite app_length. clear. generalize rest. intros rest0. induction (v :: vs) as [|x xs IH]; cbn [flat_map app length]; lia.
  - contradiction.
  - exists st. split; [|apply UPD; auto]. cbn [app].
    destruct b; cbn [tmark]; (rewrite NOP by discriminate); (rewrite NOP by discriminate); [rewrite lexer_if_hd by discriminate; auto|].
    rewrite peek_no by discriminate. rewrite lexer_if_hd by discriminate. auto.
Qed.

Definition upds (l : list item) (st st' : style) : Prop :=
  (forall k, st_val st' k = final k l (st_val st k)) /\ st_scope st' = st_scope st /\ st_cats st' = st_cats st.
Lemma upds_cons : forall i l a b c, upd i a b -> upds l b c -> upds (i :: l) a c.
Proof.
  intros i l a b c (U1 & U2 & U3) (V1 & V2 & V3). split; [|split; congruence]. intros k. rewrite V1. cbn [final]. rewrite U1. auto.
Qed.
Lemma final_app : forall k l1 l2 d, final k (l1 ++ l2) d = final k l2 (final k l1 d).
Proof. induction l1 as [|i l1 IH]; intros l2 d; cbn [final app]; auto. Qed.
Lemma upds_app : forall l1 l2 a b c, upds l1 a b -> upds l2 b c -> upds (l1 ++ l2) a c.
Proof. intros l1 l2 a b c (U1 & U2 & U3) (V1 & V2 & V3). split; [|split; congruence]. intros k. rewrite V1, U1, final_app. auto. Qed.

(** The options of a scope: up to an option without. *)
Lemma nested_items : forall l fuel sc st, sc <> None -> items_ok e sc l -> st_scope st = sc -> length l < fuel ->
  exists pre suf st', l = pre ++ suf /\ documents e based fuel true (PState (all_toks l) st) = Some (NONE, PState (all_toks suf) st') /\ upds pre st st' /\ items_ok e None suf.
Proof.
  induction l as [|i l IH]; intros fuel sc st HN HO HSC Hf; (destruct fuel as [|f]; [lia|]).
  - exists [], [], st. split; auto. split; [reflexivity|]. split; [split; auto|exact I].
  - assert (STOP : ~ in_scope sc i -> items_ok e None (i :: l) /\ documents e based (S f) true (PState (all_toks (i :: l)) st) = Some (NONE, PState (all_toks (i :: l)) st)).
    { intros HS. pose proof table_facts as TF. rewrite Forall_forall in TF. cbn [items_ok] in HO. destruct HO as (HI & HO).
      destruct i as [so v|k c v|k vs|so|b]; cbn [in_scope item_ok] in *; try (exfalso; apply HS; exact I).
      - destruct HI as (H1 & H2 & H3 & H4). split; [split; auto; split; auto; split; auto; split; auto; left; destruct H4; congruence|].
        assert (HP : so_parse so <> None) by (unfold plain_option in H2; destruct (so_parse so); [discriminate|contradiction]).
        specialize (TF so H1 HP). assert (TY : y_type (topt so) = Kw (so_key so)) by (cbn [topt y_type]; auto).
        unfold all_toks. cbn [documents flat_map toks app]. unfold peek_if. rewrite !peek_no by congruence. cbn [negb andb]. rewrite pop_hd by congruence. cbn [fst topt y_so p_style].
        destruct H4 as [H4|H4]; [|congruence]. rewrite H4, HSC. destruct sc; [|congruence]. reflexivity.
      - destruct HI as (H1 & H2). split; [split; [split; auto|auto]|].
        specialize (TF so H1 ltac:(congruence)). assert (TY : y_type (topt so) = Kw (so_key so)) by (cbn [topt y_type]; auto).
        assert (X : Forall (fun so => so_parse so = Some PNested -> so_scope so = None) sopts) by (repeat constructor; cbn; intros; try discriminate; auto).
        rewrite Forall_forall in X. specialize (X so H1 H2).
        unfold all_toks. cbn [documents flat_map toks app]. unfold peek_if. rewrite !peek_no by congruence. cbn [negb andb]. rewrite pop_hd by congruence. cbn [fst topt y_so p_style].
        rewrite X, HSC. destruct sc; [|congruence]. reflexivity. }
    assert (DEC : in_scope sc i \/ ~ in_scope sc i).
    { destruct i as [so v|k c v|k vs|so|b]; cbn [in_scope]; auto. destruct (so_scope so) as [a|], sc as [b|]; try (left; reflexivity); try (right; discriminate).
      destruct (String.eqb_spec a b); [left; congruence|right; congruence]. }
    destruct DEC as [HS|HS].
    + cbn [items_ok] in HO. destruct HO as (HI & HO).
      assert (NS : next_scope sc i = sc) by (destruct i; cbn [next_scope in_scope] in *; auto; contradiction).
      destruct (step_item i l f true sc st HI HO HS HSC ltac:(discriminate)) as (st1 & E & U). rewrite NS in HO.
      destruct (IH f sc st1 HN HO) as (pre & suf & st' & E1 & E2 & E3 & E4); [destruct U; intuition congruence|cbn [length] in Hf; lia|].
      exists (i :: pre), suf, st'. split; [cbn [app]; congruence|]. split; [rewrite E, E2; auto|]. split; auto. eapply upds_cons; eauto.
    + destruct (STOP HS) as (S1 & S2). exists [], (i :: l), st. split; auto. split; auto. split; auto. split; auto.
Qed.

Lemma all_items : forall n l fuel st, length l <= n -> items_ok e None l -> st_scope st = None -> length l < fuel ->
  exists st', documents e based fuel false (PState (all_toks l) st) = Some (NONE, PState [eof_tok] st') /\ upds l st st'.
Proof.
  induction n as [n IH] using lt_wf_ind. intros [|i l] fuel st Hn HO HSC Hf; (destruct fuel as [|f]; [lia|]).
  - exists st. split; [reflexivity|]. split; auto.
  - pose proof HO as HO0. cbn [items_ok] in HO. destruct HO as (HI & HO). cbn [length] in Hn, Hf.
    assert (CASE : in_scope None i \/ exists so, i = Head so).
    { destruct i as [so v|k c v|k vs|so|b]; cbn [in_scope]; eauto. cbn [item_ok] in HI. left. destruct HI as (_ & _ & _ & [H|H]); auto. }
    destruct CASE as [HS|(so & ->)].
    + assert (NS : next_scope None i = None) by (destruct i; cbn [next_scope in_scope] in *; auto; contradiction).
      destruct (step_item i l f false None st HI HO HS HSC ltac:(auto)) as (st1 & E & U). rewrite NS in HO.
      destruct (IH (length l) ltac:(lia) l f st1 (le_n _) HO) as (st' & E1 & E2); [destruct U; intuition congruence|lia|].
      exists st'. split; [rewrite E; auto|]. eapply upds_cons; eauto.
    + cbn [item_ok] in HI. destruct HI as (H1 & H2). cbn [next_scope] in HO.
      pose proof table_facts as TF. rewrite Forall_forall in TF. specialize (TF so H1 ltac:(congruence)). assert (TY : y_type (topt so) = Kw (so_key so)) by (cbn [topt y_type]; auto).
      assert (X : Forall (fun so => so_parse so = Some PNested -> so_scope so = None) sopts) by (repeat constructor; cbn; intros; try discriminate; auto).
      rewrite Forall_forall in X. specialize (X so H1 H2).
      pose proof (lang_ok _ _ HO0) as LANG. change (all_toks (Head so :: l)) with (topt so :: tcolon :: all_toks l) in *.
      cbn [documents]. unfold peek_if. rewrite peek_no by congruence. cbn [p_rest negb andb].
      replace (negb (ytype_eqb (doc_language (topt so :: tcolon :: all_toks l)) (Kw "None") || ytype_eqb (doc_language (topt so :: tcolon :: all_toks l)) (Kw "Cpp"))) with false by (destruct LANG as [X0|X0]; rewrite X0; reflexivity).
      rewrite !peek_no by congruence. rewrite pop_hd by congruence. cbn [fst topt y_so p_style]. fold (topt so). rewrite X, HSC. cbn [scope_eqb negb]. rewrite H2. cbn [run_parse].
      unfold scoped. rewrite lexer_if_hd by congruence. cbn [topt y_type]. replace (ytype_eqb (so_type so) (so_type so)) with true by (symmetry; apply ytype_eqb_eq; auto). fold (topt so).
      rewrite lexer_if_hd by discriminate. cbn [tcolon y_type ytype_eqb]. unfold with_style. cbn [p_rest p_style].
      destruct (nested_items l f (Some (so_key so)) (set_scope (Some (so_key so)) st) ltac:(discriminate) HO eq_refl ltac:(lia)) as (pre & suf & st1 & E1 & E2 & (U1 & U2 & U3) & E4).
      rewrite E2. cbn [option_map snd p_rest p_style].
      assert (LS : length suf <= length l) by (rewrite E1, app_length; lia).
      destruct (IH (length suf) ltac:(lia) suf f (set_scope (st_scope st) st1) (le_n _) E4) as (st' & F1 & F2); [cbn [set_scope st_scope]; auto|lia|].
      rewrite F1. exists st'. split; auto. eapply upds_cons; [split; [intros k; reflexivity|split; reflexivity]|]. rewrite E1. eapply upds_app; [|exact F2].
      split; [exact U1|]. split; [cbn [set_scope st_scope]; auto|exact U3].
Qed.
End Parse.

(** ** C51 *)
(** A text whose words spell a sequence of items: every option has the last of its values, or its
    default. *)
Theorem C51_config : forall e, arith_ok (e_arith e) -> forall ls fin items, text_ok ls fin -> map (fun '(_, l) => ltok l) ls = flat_map toks items -> items_ok e None items ->
  exists st, style_parse_buffer e (Some (text ls fin)) = Some st /\ forall k, st_val st k = final k items (default_val k).
Proof.
  intros e AOK ls fin items HT HM HO. destruct (tokenize_text _ AOK ls fin HT) as (lx & E & _).
  cbn [style_parse_buffer]. unfold parse_yaml at 1. rewrite E, HM. cbn [fst].
  destruct (all_items e (Some (parse_yaml e None)) (length items) items (S (length (flat_map toks items ++ [eof_tok]))) style_defaults (le_n _) HO eq_refl) as (st' & E2 & U1 & _).
  - rewrite app_length. clear. induction items as [|i l IH]; cbn [flat_map length]; [lia|]. rewrite app_length. assert (1 <= length (toks i)) by (destruct i as [| ? [] ?| | |]; cbn [toks length]; lia). cbn [length] in IH. lia.
  - fold (all_toks items). unfold all_toks in E2 |- *. rewrite E2. cbn [option_map snd]. eexists. split; [reflexivity|]. exact U1.
Qed.
(** What an item does not set does not matter. *)
Definition sets (i : item) : bool := match i with Opt so v => match takes so v with Some _ => true | None => false end | _ => false end.
Lemma final_sets : forall k l d, final k l d = final k (filter sets l) d.
Proof.
  induction l as [|i l IH]; intros d; cbn [final filter]; auto. destruct (sets i) eqn:E; cbn [final]; rewrite <- IH; auto.
  f_equal. unfold sets in E. unfold setting. destruct i; auto. destruct (String.eqb _ _); auto. destruct (takes so v); [discriminate|auto].
Qed.
Theorem C51_ignored : forall e, arith_ok (e_arith e) -> forall ls1 fin1 items1 ls2 fin2 items2,
  text_ok ls1 fin1 -> map (fun '(_, l) => ltok l) ls1 = flat_map toks items1 -> items_ok e None items1 ->
  text_ok ls2 fin2 -> map (fun '(_, l) => ltok l) ls2 = flat_map toks items2 -> items_ok e None items2 ->
  filter sets items1 = filter sets items2 ->
  exists st1 st2, style_parse_buffer e (Some (text ls1 fin1)) = Some st1 /\ style_parse_buffer e (Some (text ls2 fin2)) = Some st2 /\ forall k, st_val st1 k = st_val st2 k.
Proof.
  intros e AOK ls1 fin1 items1 ls2 fin2 items2 T1 M1 O1 T2 M2 O2 HF.
  destruct (C51_config e AOK ls1 fin1 items1 T1 M1 O1) as (st1 & E1 & V1). destruct (C51_config e AOK ls2 fin2 items2 T2 M2 O2) as (st2 & E2 & V2).
  exists st1, st2. split; auto. split; auto. intros k. rewrite V1, V2, (final_sets k items1), (final_sets k items2), HF. auto.
Qed.
(** The last setting wins. *)
Theorem C51_last : forall e, arith_ok (e_arith e) -> forall ls fin l1 so v l2 x, text_ok ls fin -> map (fun '(_, l) => ltok l) ls = flat_map toks (l1 ++ Opt so v :: l2) -> items_ok e None (l1 ++ Opt so v :: l2) ->
  takes so v = Some x -> (forall i, In i l2 -> setting (so_key so) i = None) ->
  exists st, style_parse_buffer e (Some (text ls fin)) = Some st /\ st_val st (so_key so) = x.
Proof.
  intros e AOK ls fin l1 so v l2 x HT HM HO HX HL. destruct (C51_config e AOK ls fin _ HT HM HO) as (st & E & V). exists st. split; auto.
  rewrite V, final_app. cbn [final setting]. rewrite String.eqb_refl, HX. clear - HL. induction l2 as [|i l2 IH]; cbn [final]; auto.
  rewrite HL by (left; auto). apply IH. intros; apply HL; right; auto.
Qed.
(** Any bytes are read and parsed to the end, without undefined behaviour. *)
Theorem C51_total : forall e bf, l_bad (snd (yaml_tokenize (e_arith e) bf)) = false /\ exists st, style_parse_buffer e (Some bf) = Some st.
Proof.
  intros e bf. split.
  - unfold yaml_tokenize. apply (yaml_tokens_R (e_arith e) bf (FUEL bf) lexer_init 0); [apply R_init|unfold FUEL; lia].
  - destruct (parse_buffer_total e (Some bf)) as (st & E & _). eauto.
Qed.

(** ** The two implementations of the overflow checks *)
From Verif Require Import ArithModel ArithProps.
Local Close Scope Z_scope.
Definition inr (n : Z) : bool := ((- 2 ^ 31 <=? n) && (n <? 2 ^ 31))%Z.
Definition wrap32 (n : Z) : Z := ((n + 2 ^ 31) mod 2 ^ 32 - 2 ^ 31)%Z.
(** __builtin_mul_overflow stores the wrapped result. *)
Definition builtin : arith := Arith (fun a b => (negb (inr (a * b)%Z), wrap32 (a * b)%Z)) (fun a b => (negb (inr (a + b)%Z), wrap32 (a + b)%Z)).
(** The portable version stores nothing on overflow; the destination is the first operand. *)
Definition portable_op (f : Z -> Z -> res) (a b : Z) : bool * Z := match f a b with Val v => (false, v) | _ => (true, a) end.
Definition portable : arith := Arith (portable_op i32_mul_overflow0) (portable_op i32_add_overflow0).
Lemma wrap32_in : forall n, i32 n -> wrap32 n = n.
Proof. intros n H. unfold wrap32, i32 in *. rewrite Z.mod_small; lia. Qed.
Lemma wrap32_i32 : forall n, i32 (wrap32 n).
Proof. intros n. unfold wrap32, i32. pose proof (Z.mod_pos_bound (n + 2 ^ 31) (2 ^ 32) ltac:(lia)). lia. Qed.
Lemma builtin_ok : arith_ok builtin.
Proof.
  split; intros a b Ha Hb; cbn [builtin a_mul a_add]; fold (inr (a * b)%Z); fold (inr (a + b)%Z).
  - destruct (inr (a * b)%Z) eqn:E; cbn [negb fst snd]; [|split; [auto|apply wrap32_i32]]. rewrite wrap32_in; auto. unfold inr in E. apply andb_true_iff in E as [E1 E2]. apply Z.leb_le in E1. apply Z.ltb_lt in E2. split; auto.
  - destruct (inr (a + b)%Z) eqn:E; cbn [negb fst snd]; [|split; [auto|apply wrap32_i32]]. rewrite wrap32_in; auto. unfold inr in E. apply andb_true_iff in E as [E1 E2]. apply Z.leb_le in E1. apply Z.ltb_lt in E2. split; auto.
Qed.
Lemma portable_ok : arith_ok portable.
Proof.
  split; intros a b Ha Hb; cbn [portable a_mul a_add]; unfold portable_op; destruct (C45_signed a b) as (XA & _ & XM & _); unfold exact, INT32_MIN, INT32_MAX, i32 in *.
  - destruct (XM ltac:(lia) ltac:(lia)) as (X1 & X2). destruct ((- 2 ^ 31 <=? a * b) && (a * b <? 2 ^ 31))%Z eqn:E.
    + apply andb_true_iff in E as [E1 E2]. apply Z.leb_le in E1. apply Z.ltb_lt in E2. rewrite X1 by lia. auto.
    + apply andb_false_iff in E. rewrite Z.leb_gt, Z.ltb_ge in E. rewrite X2 by lia. cbn [fst snd]. lia.
  - destruct (XA ltac:(lia) ltac:(lia)) as (X1 & X2). destruct ((- 2 ^ 31 <=? a + b) && (a + b <? 2 ^ 31))%Z eqn:E.
    + apply andb_true_iff in E as [E1 E2]. apply Z.leb_le in E1. apply Z.ltb_lt in E2. rewrite X1 by lia. auto.
    + apply andb_false_iff in E. rewrite Z.leb_gt, Z.ltb_ge in E. rewrite X2 by lia. cbn [fst snd]. lia.
Qed.

(** ** C50 *)
(** A numeral, quoted or not, is read whole. In range the token carries its value and nothing is
    reported; when the digits exceed the range an error is reported. *)
Theorem C50_numeral : forall ar, arith_ok ar -> forall neg q ds rest, ds <> [] -> Forall (fun c => isdigit c = true) ds -> num_follow q rest ->
  let inp := num_text neg q ds ++ rest in
  exists n o lx, read_integer ar inp lexer_init = (Some (YTok Integer None n (num_text neg q ds), o), lx) /\ Rat inp lx rest /\
    ((dval ds < 2 ^ 31)%Z -> n = num_val neg ds /\ o = false) /\ ((2 ^ 31 <= dval ds)%Z -> o = true).
Proof.
  intros ar AOK neg q [|d ds] rest HN HF HFo inp; [congruence|]. inversion HF as [|x y Hd HF2]; subst x y.
  destruct (read_integer_at ar inp AOK neg q d ds rest lexer_init 0 (R_init inp) (Nat.le_0_l _) eq_refl Hd HF2 HFo) as (lx & m & o & E & HR & X).
  exists m, o, lx. auto.
Qed.
(** What does not start as a numeral is not read: the position is restored. *)
Theorem C50_other : forall ar inp, no_num inp -> exists lx, read_integer ar inp lexer_init = (None, lx) /\ Rat inp lx inp.
Proof.
  intros ar inp HN. destruct (read_integer_none ar inp lexer_init 0 inp (R_init inp) eq_refl HN) as (lx & E & HR). exists lx. split; auto.
  exists 0. split; auto. left. split; [lia|reflexivity].
Qed.
(** Both implementations of the overflow checks qualify. *)
Theorem C50_arith : arith_ok builtin /\ arith_ok portable.
Proof. split; [apply builtin_ok|apply portable_ok]. Qed.
(** An integer option followed by a numeral is stored, as an unsigned. *)
Definition is_word (k : bytes) : Prop := match k with [] => False | c :: w => (isalpha c || (c =c "_"%char)) = true /\ Forall (fun c => wordc c = true) w end.
Theorem C50_option : forall e, arith_ok (e_arith e) -> forall so g1 g2 g3 fin neg q ds,
  In so sopts -> so_parse so = Some PInteger -> so_scope so = None -> gap_ok g1 -> gap_ok g2 -> gap_ok g3 -> gap_ok fin ->
  (forall r, gtext g2 <> "#"%char :: r) -> gtext g3 <> [] -> ds <> [] -> Forall (fun c => isdigit c = true) ds -> (dval ds < 2 ^ 31)%Z -> num_follow q (gtext fin) ->
  exists st, style_parse_buffer e (Some (gtext g1 ++ s2b (so_key so) ++ gtext g2 ++ s2b ":" ++ gtext g3 ++ num_text neg q ds ++ gtext fin)) = Some st /\
    st_val st (so_key so) = VInt (num_val neg ds mod 2 ^ 32)%Z /\ forall k, k <> so_key so -> st_val st k = default_val k.
Proof.
  intros e AOK so g1 g2 g3 fin neg q ds HI HP HS G1 G2 G3 GF HG2 HG3 HD HF HV HFo.
  set (ls := [(g1, LWord (s2b (so_key so))); (g2, LMark ":"%char 0); (g3, LNum neg q ds)]).
  set (v := YTok Integer None (num_val neg ds) (num_text neg q ds)).
  assert (TF : Forall (fun so => so_parse so = Some PInteger -> so_scope so = None -> is_word (s2b (so_key so)) /\ kw_tok (s2b (so_key so)) = topt so) sopts).
  { repeat constructor; cbn [so_parse topopt nested enumv prim]; intros; try discriminate; try reflexivity; repeat constructor. }
  rewrite Forall_forall in TF. destruct (TF so HI HP HS) as (W & K). clear TF.
  assert (GH : forall g, gap_ok g -> match gtext g with [] => True | c :: _ => (wordc c = false \/ c = "#"%char) /\ c <> ":"%char /\ isdigit c = false end).
  { intros [b cs] (B1 & B2). unfold gtext. cbn [g_blank g_comments] in *. destruct b as [|c b]; cbn [app].
    - destruct cs as [|[t b] cs]; cbn [flat_map app]; auto. split; [auto|]. split; [discriminate|reflexivity].
    - inversion B1 as [|x y Hc _]; subst x y. unfold blank in Hc. destruct c as [[] [] [] [] [] [] [] []]; cbv in Hc; try (intuition discriminate); (split; [left; reflexivity|]; split; [discriminate|reflexivity]). }
  assert (T : text ls fin = gtext g1 ++ s2b (so_key so) ++ gtext g2 ++ s2b ":" ++ gtext g3 ++ num_text neg q ds ++ gtext fin).
  { unfold text, ls. cbn [flat_map ltext repeat app]. rewrite app_nil_r, <- !app_assoc. reflexivity. }
  assert (TO : text_ok ls fin).
  { unfold ls. cbn [text_ok]. split; auto. split; [split; [exact W|]|split; auto; split; [split; [auto|]|split; auto; split; [|auto]]].
    - unfold text. cbn [flat_map]. rewrite <- !app_assoc. pose proof (GH g2 G2) as X. destruct (gtext g2) as [|c0 r0]; cbn [app ltext repeat]; [reflexivity|]. destruct X as ([X|X] & _); [auto|]. exfalso. apply (HG2 r0). congruence.
    - unfold text. cbn [flat_map]. rewrite <- !app_assoc. pose proof (GH g3 G3) as X. destruct (gtext g3); cbn [app]; [congruence|]. tauto.
    - repeat split; auto. }
  assert (HM : map (fun '(_, l) => ltok l) ls = flat_map toks [Opt so v]).
  { unfold ls. cbn [map ltok flat_map toks app]. rewrite K. reflexivity. }
  assert (HO : items_ok e None [Opt so v]).
  { cbn [items_ok item_ok]. split; auto. split; auto. split; [unfold plain_option; rewrite HP; auto|]. split; auto. unfold plain, v. cbn [y_type]. repeat split; discriminate. }
  destruct (C51_config e AOK ls fin [Opt so v] TO HM HO) as (st & E & V). rewrite T in E. exists st. split; auto.
  assert (HT : takes so v = Some (VInt (num_val neg ds mod 2 ^ 32)%Z)) by (unfold takes; rewrite HP; reflexivity).
  split; intros; rewrite V; cbn [final setting].
  - rewrite String.eqb_refl, HT. auto.
  - destruct (String.eqb (so_key so) k) eqn:EK; auto. apply String.eqb_eq in EK. congruence.
Qed.

(** ** What does not hold *)
Definition no_dump : env := Env (fun _ => None) (fun _ => true) builtin.
Definition val_of (s : string) (k : string) : option sval := option_map (fun st => st_val st k) (style_parse_buffer no_dump (Some (s2b s))).
Definition lines (l : list string) : string := fold_right (fun x r => (x ++ String NL r)%string) ""%string l.
(** The smallest int is reported as too large. *)
Theorem C50_min_refuted : exists ds rest, num_val true ds = (- 2 ^ 31)%Z /\
  exists n lx tx, read_integer builtin (num_text true false ds ++ rest) lexer_init = (Some (YTok Integer None n tx, true), lx).
Proof. exists (s2b "2147483648"), [NL]. split; [vm_compute; reflexivity|]. do 3 eexists. vm_compute. reflexivity. Qed.
(** A numeral out of range is used all the same. *)
Theorem C50_rejected_refuted : exists s, val_of s "IndentWidth" = Some (VInt 4294967290) /\ val_of "" "IndentWidth" <> Some (VInt 4294967290).
Proof. exists "IndentWidth: 4294967297"%string. split; [vm_compute; reflexivity|vm_compute; discriminate]. Qed.
(** So is a numeral followed by other characters, the keyword Integer, and a negative number. *)
Theorem C50_malformed_refuted :
  val_of (lines ["IndentWidth: 80x"; "UseTab: Never"]%string) "IndentWidth" = Some (VInt 80) /\
  val_of (lines ["ColumnLimit: Integer"]%string) "ColumnLimit" = Some (VInt (2 ^ 32 - 1)) /\
  val_of (lines ["IndentWidth: -1"]%string) "IndentWidth" = Some (VInt (2 ^ 32 - 1)).
Proof. repeat split; vm_compute; reflexivity. Qed.
(** A byte that starts no token makes the whole configuration ignored. *)
Theorem C51_byte_refuted : exists s, val_of (lines ["UseTab: Never"]%string) "UseTab" = Some (VKw "Never") /\ val_of (lines ["UseTab: Never"; s]%string) "UseTab" <> Some (VKw "Never").
Proof. exists "Foo: [1]"%string. split; [vm_compute; reflexivity|vm_compute; discriminate]. Qed.
(** An unknown option without value takes the next one with it. *)
Theorem C51_novalue_refuted : exists s, val_of (lines [s; "UseTab: Never"]%string) "UseTab" <> Some (VKw "Never") /\ val_of (lines [s; "UseTab: Never"; "UseTab: Never"]%string) "UseTab" = Some (VKw "Never").
Proof. exists "Foo:"%string. split; [vm_compute; discriminate|vm_compute; reflexivity]. Qed.
(** A known option without colon, a nested option at top level, and no lines around the guard, end it. *)
Theorem C51_stop_refuted : forall s, In s ["IndentWidth 8"; "AfterFunction: true"; "IncludeGuards: 0"]%string -> val_of (lines [s; "UseTab: Never"]%string) "UseTab" <> Some (VKw "Never").
Proof. intros s [<-|[<-|[<-|[]]]]; vm_compute; discriminate. Qed.

(** ** Examples *)
Definition blank_gap (n : nat) : gap := Gap (repeat SP n) [].
Definition nl_gap : gap := Gap [NL] [].
Definition ex_text : list (gap * lexeme) :=
  [(Gap [] [(s2b " knfmt", [])], LMark "-"%char 2); (nl_gap, LWord (s2b "Foo")); (blank_gap 0, LMark ":"%char 0); (blank_gap 1, LWord (s2b "Bar"));
   (nl_gap, LWord (s2b "IndentWidth")); (blank_gap 0, LMark ":"%char 0); (blank_gap 1, LNum false false (s2b "4"));
   (nl_gap, LWord (s2b "BraceWrapping")); (blank_gap 0, LMark ":"%char 0);
   (Gap (NL :: repeat SP 2) [], LWord (s2b "AfterFunction")); (blank_gap 0, LMark ":"%char 0); (blank_gap 1, LWord (s2b "false"));
   (nl_gap, LWord (s2b "IndentWidth")); (blank_gap 0, LMark ":"%char 0); (blank_gap 1, LWord (s2b "wide"));
   (nl_gap, LWord (s2b "Seq")); (blank_gap 0, LMark ":"%char 0); (nl_gap, LMark "-"%char 0); (blank_gap 1, LStr (s2b "a b"));
   (nl_gap, LWord (s2b "UseTab")); (blank_gap 0, LMark ":"%char 0); (blank_gap 1, LWord (s2b "Never"))].
Definition opt_of (k : string) : sopt := match find_sopt (s2b k) with Some o => o | None => prim YEof "" end.
Definition ex_items : list item :=
  [Mark true; Other (kw_tok (s2b "Foo")) true (kw_tok (s2b "Bar")); Opt (opt_of "IndentWidth") (YTok Integer None 4 (s2b "4"));
   Head (opt_of "BraceWrapping"); Opt (opt_of "AfterFunction") (kw_tok (s2b "false")); Opt (opt_of "IndentWidth") (kw_tok (s2b "wide"));
   OtherSeq (kw_tok (s2b "Seq")) [YTok YString None 0 (s2b "a b")]; Opt (opt_of "UseTab") (kw_tok (s2b "Never"))].
Lemma ex_text_ok : text_ok ex_text nl_gap.
Proof.
  assert (W : forall w rest, match w with [] => False | c :: w => (isalpha c || (c =c "_"%char)) = true /\ forallb wordc w = true end -> match rest with [] => True | c :: _ => wordc c = false end -> lex_ok (LWord w) rest).
  { intros [|c w] rest (H1 & H2) H3 || intros [|c w] rest H H3; [contradiction|]. split; auto. destruct H as (H1 & H2). split; auto. apply Forall_forall. rewrite forallb_forall in H2. auto. }
  unfold ex_text. cbn [text_ok].
  repeat match goal with
  | |- gap_ok _ /\ _ => split; [split; cbn [blank_gap nl_gap g_blank g_comments repeat]; repeat (apply Forall_cons || apply Forall_nil); try (split; [cbv; intuition discriminate|apply Forall_nil]); cbv; auto|]
  | |- lex_ok (LWord _) _ /\ _ => split; [apply W; [vm_compute; auto|vm_compute; auto]|]
  | |- lex_ok (LMark _ _) _ /\ _ => split; [vm_compute; intuition discriminate|]
  | |- lex_ok (LNum _ _ _) _ /\ _ => split; [vm_compute; repeat split; try discriminate; repeat constructor|]
  | |- lex_ok (LStr _) _ /\ _ => split; [vm_compute; intuition discriminate|]
  end.
  split; [repeat (apply Forall_cons || apply Forall_nil); cbv; auto|apply Forall_nil].
Qed.
Example C51_ex : exists st, style_parse_buffer no_dump (Some (text ex_text nl_gap)) = Some st /\ st_val st "IndentWidth" = VInt 4 /\ st_val st "UseTab" = VKw "Never" /\ st_val st "AfterFunction" = VKw "False" /\ st_val st "ColumnLimit" = default_val "ColumnLimit".
Proof.
  destruct (C51_config no_dump builtin_ok ex_text nl_gap ex_items ex_text_ok) as (st & E & V).
  - vm_compute. reflexivity.
  - cbn [ex_items items_ok].
    repeat match goal with
    | |- item_ok _ _ (Mark _) /\ _ => split; [exact I|]
    | |- item_ok _ _ (Other _ _ _) /\ _ => split; [vm_compute; intuition discriminate|]
    | |- item_ok _ _ (OtherSeq _ _) /\ _ => split; [split; [vm_compute; intuition discriminate|split; [discriminate|repeat constructor; vm_compute; discriminate]]|]
    | |- item_ok _ _ (Head _) /\ _ => split; [split; [vm_compute; tauto|vm_compute; reflexivity]|]
    | |- item_ok _ _ (Opt _ _) /\ _ => split; [split; [vm_compute; tauto|split; [vm_compute; auto; discriminate|split; [vm_compute; intuition discriminate|vm_compute; auto]]]|]
    | |- True => exact I
    end.
  - exists st. split; auto. rewrite !V. vm_compute. auto.
Qed.
Example C51_ex_ignored : filter sets ex_items = filter sets [Opt (opt_of "IndentWidth") (YTok Integer None 4 (s2b "4")); Head (opt_of "BraceWrapping"); Opt (opt_of "AfterFunction") (kw_tok (s2b "false")); Opt (opt_of "UseTab") (kw_tok (s2b "Never"))].
Proof. vm_compute. reflexivity. Qed.
Example C50_ex : exists st, style_parse_buffer no_dump (Some (s2b "IndentWidth : '-007'")) = Some st /\ st_val st "IndentWidth" = VInt (2 ^ 32 - 7).
Proof.
  destruct (C50_option no_dump builtin_ok (opt_of "IndentWidth") (blank_gap 0) (blank_gap 1) (blank_gap 1) (blank_gap 0) true true (s2b "007")) as (st & E & V & _).
  all: try (vm_compute; intuition congruence). all: try (split; repeat constructor; fail). all: try (repeat constructor; fail).
  - exists st. split; auto.
Qed.
Example C50_ex_other : no_num (s2b "'a'") /\ no_num (s2b "- x") /\ no_num (s2b "k").
Proof. vm_compute. intuition discriminate. Qed.

Print Assumptions C50_numeral.
Print Assumptions C50_other.
Print Assumptions C50_arith.
Print Assumptions C50_option.
Print Assumptions C51_config.
Print Assumptions C51_ignored.
Print Assumptions C51_last.
Print Assumptions C51_total.
