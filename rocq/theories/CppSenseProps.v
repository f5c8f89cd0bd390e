(** C24: how the continuations of a directive are aligned already. *)
From Coq Require Import Lia.
From Verif Require Import Base StrModel UtilModel UtilProofs DocModel RulerModel RulerProps CppAlignModel CppAlignProps.

(** ** Specification, on lines as in CppAlignProps *)
(** The column of the backslash, from 0. *)
Definition column_of (k : cont) : nat := display_col (k_body k ++ k_ws k) 0.
Definition by_tabs (k : cont) : Prop := exists r, k_ws k = TAB :: r.
Definition by_spaces (k : cont) : Prop := exists r, k_ws k = SP :: r.
Definition mixed (a b : cont) : Prop := (by_tabs a /\ by_spaces b) \/ (by_spaces a /\ by_tabs b).
(** No line among the first three goes beyond the limit, its newline included; all of them have
    a single blank. *)
Definition all_fit (limit : nat) (ks : list cont) : Prop := forall k, In k (firstn 3 ks) -> column_of k + 2 <= limit.
Definition all_single (ks : list cont) : Prop := forall k, In k (firstn 3 ks) -> k_ws k = [SP].
(** The second and third line end in the same column. *)
Definition in_column (k2 k3 : cont) : Prop := column_of k2 = column_of k3 /\ ~ mixed k2 k3.
Inductive recognised (limit : nat) (ks : list cont) : option alignment -> Prop :=
| RC_wide : ~ all_fit limit ks -> recognised limit ks None
| RC_single : all_fit limit ks -> all_single ks -> recognised limit ks (Some (Alignment DontAlign 0 false false))
| RC_column : forall k1 k2 k3 r tabs skip, all_fit limit ks -> ~ all_single ks -> ks = k1 :: k2 :: k3 :: r -> in_column k2 k3 ->
    (tabs = true <-> ~ by_spaces k1 /\ ~ by_spaces k2 /\ ~ by_spaces k3) -> (skip = true <-> k_ws k1 = [SP]) ->
    recognised limit ks (Some (Alignment Right (column_of k3) tabs skip))
| RC_none : all_fit limit ks -> ~ all_single ks -> (forall k1 k2 k3 r, ks = k1 :: k2 :: k3 :: r -> ~ in_column k2 k3) -> recognised limit ks None.

(** ** Proofs *)
Lemma span_all : forall p (a b : bytes), (forall c, In c a -> p c = true) -> (forall c t, b = c :: t -> p c = false) -> span_len p (a ++ b) = length a.
Proof.
  intros p a b. induction a as [|c a IH]; intros H1 H2; cbn [app span_len length].
  - destruct b as [|c b]; [reflexivity|]. cbn [span_len]. rewrite (H2 c b eq_refl). reflexivity.
  - rewrite (H1 c (or_introl eq_refl)). f_equal. apply IH; [intros d Hd; apply H1; right; exact Hd|exact H2].
Qed.
Lemma nextline_src : forall body ws r, (forall c, In c ws -> isspace c = true) -> ~ In NL body -> ~ In NL ws -> (forall x c, body = x ++ [c] -> isspace c = false) ->
  nextline (body ++ ws ++ [BSL; NL] ++ r) = Some (length body, length (body ++ ws ++ [BSL; NL])).
Proof.
  intros body ws r H1 H2 H3 H4. unfold nextline. replace (body ++ ws ++ [BSL; NL] ++ r) with (((body ++ ws) ++ [BSL]) ++ NL :: r) by (rewrite <- !app_assoc; reflexivity).
  rewrite memchr_here. 2:{ rewrite !in_app_iff. intros [[Q|Q]|[Q|[]]]; [exact (H2 Q)|exact (H3 Q)|discriminate]. }
  rewrite app_length, Nat.add_comm. cbn [length Nat.add]. rewrite <- app_assoc. rewrite app_nth2, Nat.sub_diag by lia. cbn [app nth]. rewrite Ascii.eqb_refl, firstn_pre. rewrite rev_app_distr, span_all.
  - rewrite rev_length, !app_length. cbn [length]. f_equal. f_equal; lia.
  - intros c Hc. apply H1, in_rev. exact Hc.
  - intros c t E. apply (H4 (rev t) c). rewrite <- (rev_involutive body), E. reflexivity.
Qed.
Lemma not_continued : forall s, ~ continued s -> nextline s = None.
Proof.
  intros s N. destruct (nextline s) as [[e nx]|] eqn:E; [|reflexivity]. exfalso. apply N. destruct (nextline_some s e nx E) as (body & ws & r & -> & _ & _ & _ & B & C & _). exists (body ++ ws), r. split; [rewrite <- app_assoc; reflexivity|]. intros Q. apply in_app_or in Q. tauto.
Qed.
Definition singleb (k : cont) : bool := beq (k_ws k) [SP].
Definition kind (k : cont) : itype := classify (k_ws k).
Lemma single_iff : forall k, singleb k = true <-> k_ws k = [SP].
Proof. intros k. unfold singleb. split; [apply beq_eq|intros ->; reflexivity]. Qed.
Lemma kind_tabs : forall k, kind k = ITabs <-> by_tabs k.
Proof.
  intros k. unfold kind, classify, by_tabs. destruct (k_ws k) as [|c w]; [split; [discriminate|intros (r & H); discriminate]|]. destruct (Ascii.eqb_spec c TAB) as [->|N]; [split; [eauto|reflexivity]|]. split; [destruct (c =c SP); discriminate|intros (r & H); congruence].
Qed.
Lemma kind_spaces : forall k, kind k = ISpaces <-> by_spaces k.
Proof.
  intros k. unfold kind, classify, by_spaces. destruct (k_ws k) as [|c w]; [split; [discriminate|intros (r & H); discriminate]|]. destruct (Ascii.eqb_spec c TAB) as [->|N]; [split; [discriminate|intros (r & H); discriminate]|]. destruct (Ascii.eqb_spec c SP) as [->|M]; [split; [eauto|reflexivity]|]. split; [discriminate|intros (r & H); congruence].
Qed.
Lemma not_aligned_iff : forall k t, (forall c, In c (k_ws k) -> isspace c = true) -> starts_with [SP; BSL] (k_ws k ++ [BSL; NL] ++ t) = singleb k.
Proof.
  intros k t H. unfold singleb. destruct (k_ws k) as [|c [|d w]]; [reflexivity| |].
  - cbn [app starts_with]. rewrite !andb_true_r. destruct (Ascii.eqb_spec SP c) as [<-|N]; [reflexivity|]. symmetry. apply not_true_iff_false. intros Q. apply beq_eq in Q. congruence.
  - cbn [app starts_with]. assert (D := H d (or_intror (or_introl eq_refl))). destruct (Ascii.eqb_spec BSL d) as [<-|N]; [discriminate D|]. rewrite andb_false_r. symmetry. apply not_true_iff_false. intros Q. apply beq_eq in Q. discriminate.
Qed.
Lemma classify_ws : forall k t, classify (k_ws k ++ [BSL; NL] ++ t) = kind k.
Proof. intros k t. unfold kind. destruct (k_ws k); reflexivity. Qed.
Definition sensed (k : cont) (a : aline) : Prop := not_aligned a = singleb k /\ l_type a = kind k /\ l_width a = column_of k.
Lemma sense_lines_src : forall limit n ks rest, Forall cont_ok ks -> ~ continued rest ->
  match sense_lines limit n (concat (List.map src ks) ++ rest) with
  | None => exists k, In k (firstn n ks) /\ limit < column_of k + 2
  | Some l => Forall2 sensed (firstn n ks) l /\ forall k, In k (firstn n ks) -> column_of k + 2 <= limit
  end.
Proof.
  intros limit. induction n as [|n IH]; intros ks rest F N; [split; [constructor|intros k []]|]. cbn [sense_lines]. destruct ks as [|k ks]; cbn [List.map concat app firstn]; [rewrite (not_continued _ N); split; [constructor|intros k []]|].
  apply Forall_cons_iff in F. destruct F as [(A & _ & B & C & D) F]. change (src k) with (k_body k ++ k_ws k ++ [BSL; NL]). rewrite <- !app_assoc. rewrite nextline_src by assumption.
  set (t := concat (List.map src ks) ++ rest). assert (LN : 2 <= length (k_body k ++ k_ws k ++ [BSL; NL])) by (rewrite !app_length; cbn [length]; lia). destruct (Nat.ltb_spec (length (k_body k ++ k_ws k ++ [BSL; NL])) 2); [lia|].
  assert (COL : colwidth (firstn (length (k_body k ++ k_ws k ++ [BSL; NL]) - 1) (k_body k ++ k_ws k ++ [BSL; NL] ++ t)) 1 = column_of k + 2).
  { replace (length (k_body k ++ k_ws k ++ [BSL; NL]) - 1) with (length ((k_body k ++ k_ws k) ++ [BSL])) by (rewrite !app_length; cbn [length]; lia). replace (k_body k ++ k_ws k ++ [BSL; NL] ++ t) with (((k_body k ++ k_ws k) ++ [BSL]) ++ NL :: t) by (rewrite <- !app_assoc; reflexivity). rewrite firstn_pre, colwidth_spec by lia. rewrite display_col_app. unfold column_of. cbn. lia. }
  rewrite COL. destruct (Nat.ltb_spec limit (column_of k + 2)) as [W|W]; [exists k; split; [left; reflexivity|exact W]|].
  assert (SK : skipn (length (k_body k ++ k_ws k ++ [BSL; NL])) (k_body k ++ k_ws k ++ [BSL; NL] ++ t) = t). { replace (k_body k ++ k_ws k ++ [BSL; NL] ++ t) with ((k_body k ++ k_ws k ++ [BSL; NL]) ++ t) by (rewrite <- !app_assoc; reflexivity). apply skipn_pre. }
  rewrite SK. specialize (IH ks rest F N). fold t in IH. destruct (sense_lines limit n t) as [l|].
  - destruct IH as [I1 I2]. split; [|intros k' [<-|H']; auto]. constructor; [|exact I1]. unfold sensed, not_aligned. cbn [l_indent l_type l_width]. rewrite skipn_pre, classify_ws. split; [apply not_aligned_iff; exact A|]. split; [reflexivity|lia].
  - destruct IH as (k' & I1 & I2). exists k'. split; [right; exact I1|exact I2].
Qed.
Lemma sensed_single : forall ks l, Forall2 sensed ks l -> (forallb not_aligned l = true <-> forall k, In k ks -> k_ws k = [SP]).
Proof.
  induction 1 as [|k a ks l (H1 & _) _ IH]; [split; [intros _ k []|reflexivity]|]. cbn [forallb]. rewrite andb_true_iff, H1, single_iff, IH. split; [intros [P Q] k' [<-|K]; auto|intros P; split; [apply P; left; reflexivity|intros k' K; apply P; right; exact K]].
Qed.
(** The specification allows one answer only. *)
Lemma recognised_fun : forall limit ks a b, recognised limit ks a -> recognised limit ks b -> a = b.
Proof.
  intros limit ks a b H K. destruct H as [H|H1 H2|k1 k2 k3 r t sk H1 H2 -> H4 H5 H6|H1 H2 H3]; destruct K as [K|K1 K2|l1 l2 l3 r' t' sk' K1 K2 E K4 K5 K6|K1 K2 K3]; try reflexivity; try contradiction.
  - injection E as <- <- <- <-. f_equal. f_equal; [destruct t, t'|destruct sk, sk']; try reflexivity; exfalso; (assert (Q : false = true) by tauto; discriminate).
  - exfalso. eapply K3; [reflexivity|exact H4].
  - subst. exfalso. eapply H3; [reflexivity|exact K4].
Qed.
(** Whether and how the continuations of a directive are aligned is told from the first three
    lines as specified, for every text: one blank each; or, leaving the first aside, all in one
    column, by tabs or by spaces; or not at all. The specification allows one answer only. *)
Theorem C24_sense : forall limit s ks rest, s = concat (List.map src ks) ++ rest -> Forall cont_ok ks -> ~ continued rest ->
  recognised limit ks (sense_alignment limit s) /\ forall a, recognised limit ks a -> a = sense_alignment limit s.
Proof.
  intros limit s ks rest -> F N. cut (recognised limit ks (sense_alignment limit (concat (List.map src ks) ++ rest))); [intros R; split; [exact R|intros a A; exact (recognised_fun _ _ _ _ A R)]|]. unfold sense_alignment. pose proof (sense_lines_src limit 3 ks rest F N) as H. destruct (sense_lines limit 3 _) as [l|].
  2:{ destruct H as (k & H1 & H2). apply RC_wide. intros Q. specialize (Q k H1). lia. }
  destruct H as [H1 H2]. pose proof (sensed_single _ _ H1) as S. destruct (forallb not_aligned l) eqn:E; [apply RC_single; [exact H2|exact (proj1 S eq_refl)]|].
  assert (NS : ~ all_single ks) by (intros Q; pose proof (proj2 S Q); discriminate). clear S E.
  assert (LL : length l = length (firstn 3 ks)) by (clear -H1; induction H1; cbn [length]; congruence).
  destruct ks as [|k1 [|k2 [|k3 ks]]]; cbn [firstn length] in H1, LL; try (rewrite LL; cbn [Nat.leb andb]; apply RC_none; [exact H2|exact NS|intros ? ? ? ? Q; discriminate Q]).
  inversion H1 as [|? a1 ? ? (A1 & A2 & A3) R1]; subst. inversion R1 as [|? a2 ? ? (B1 & B2 & B3) R2]; subst. inversion R2 as [|? a3 ? ? (C1 & C2 & C3) R3]; subst. inversion R3; subst. clear H1 R1 R2 R3.
  cbn [length Nat.leb andb tl all_identical List.map last]. rewrite !andb_true_r. rewrite B2, C2, B3, C3, A1.
  assert (ST : same_type (kind k2) (kind k3) = true <-> ~ mixed k2 k3). { unfold mixed. rewrite <- !kind_tabs, <- !kind_spaces. destruct (kind k2), (kind k3); cbn; split; intros; try reflexivity; try discriminate; try (intros [[? ?]|[? ?]]; discriminate); exfalso; tauto. }
  destruct ((column_of k2 =? column_of k3) && same_type (kind k2) (kind k3)) eqn:E.
  - apply andb_true_iff in E. destruct E as [E1 E2]. apply Nat.eqb_eq in E1. eapply RC_column; [exact H2|exact NS|reflexivity|split; [exact E1|apply ST; exact E2]| |apply single_iff].
    unfold all_tabs. cbn [forallb]. rewrite A2, B2, C2, <- !kind_spaces. destruct (kind k1), (kind k2), (kind k3); cbn; split; intros; try reflexivity; try discriminate; try (split; [|split]; discriminate); exfalso; tauto.
  - apply RC_none; [exact H2|exact NS|]. intros k1' k2' k3' r Q (I1 & I2). injection Q as <- <- <- <-. apply ST in I2. rewrite I1, I2, Nat.eqb_refl in E. discriminate.
Qed.
(** ** Examples *)
(** The first line is continued behind a single blank, the others in column 8 by a tab; by a tab
    and by spaces. *)
Definition sense_ex (a b : bytes) : list cont := [Cont (s2b "define x") [SP] []; Cont (s2b "y") a []; Cont (s2b "zz") b []].
Lemma cont_okb : forall body c ws, forallb (fun d => negb (d =c NL)) (body ++ [c]) = true -> forallb (fun d => negb (d =c NL)) ws = true -> forallb isspace ws = true -> isspace c = false -> cont_ok (Cont (body ++ [c]) ws []).
Proof.
  intros body c ws A A' B C. assert (N : forall l, forallb (fun d => negb (d =c NL)) l = true -> ~ In NL l). { intros l E Q. apply (proj1 (forallb_forall _ _) E) in Q. rewrite Ascii.eqb_refl in Q. discriminate. }
  split; [apply forallb_forall; exact B|]. split; [intros ? []|]. split; [apply N; exact A|]. split; [apply N; exact A'|]. cbn [k_body]. intros x d E. apply app_inj_tail in E. destruct E as [_ <-]. exact C.
Qed.
Lemma sense_ex_ok : forall a b, In a [[TAB]; s2b "       "; s2b " "] -> In b [[TAB]; s2b "      "; s2b " "] -> Forall cont_ok (sense_ex a b).
Proof.
  intros a b Ha Hb. apply Forall_cons; [apply (cont_okb (s2b "define ") "x"%char); reflexivity|]. apply Forall_cons; [|apply Forall_cons; [|apply Forall_nil]].
  - apply (cont_okb [] "y"%char); try reflexivity; repeat (destruct Ha as [<-|Ha]; [reflexivity|]); destruct Ha.
  - apply (cont_okb [("z")%char] "z"%char); try reflexivity; repeat (destruct Hb as [<-|Hb]; [reflexivity|]); destruct Hb.
Qed.
Example C24_ex_sense : ~ continued (s2b "w") /\ let text ks := concat (List.map src ks) ++ s2b "w" in
  sense_alignment 80 (text (sense_ex [TAB] [TAB])) = Some (Alignment Right 8 false true) /\
  sense_alignment 80 (text (sense_ex (s2b "       ") (s2b "      "))) = Some (Alignment Right 8 false true) /\
  sense_alignment 80 (text (sense_ex [TAB] (s2b "      "))) = None /\ sense_alignment 9 (text (sense_ex [TAB] [TAB])) = None /\
  sense_alignment 80 (text (sense_ex (s2b " ") (s2b " "))) = Some (Alignment DontAlign 0 false false).
Proof. split; [intros (a & b & E & _); destruct a as [|? [|]]; discriminate|]. vm_compute. repeat split. Qed.

Print Assumptions C24_sense.
