(** C74: aligning continuations that are aligned already. *)
From Coq Require Import Lia.
From Verif Require Import Base StrModel UtilModel DocModel RulerModel RulerProps CppAlignModel CppAlignProps CppSenseProps.

(** ** Continuations *)
Lemma bodies_src : forall fuel ks rest, Forall cont_ok ks -> ~ continued rest -> length ks <= fuel -> bodies fuel (concat (List.map src ks) ++ rest) = (List.map k_body ks, rest).
Proof.
  induction fuel as [|fuel IH]; intros ks rest F N L.
  - destruct ks; [reflexivity|cbn in L; lia].
  - destruct ks as [|k ks]; cbn [bodies List.map concat app]; [rewrite (not_continued _ N); reflexivity|]. apply Forall_cons_iff in F. destruct F as [(A & _ & B & C & D) F]. change (src k) with (k_body k ++ k_ws k ++ [BSL; NL]). rewrite <- !app_assoc. rewrite nextline_src by assumption.
    rewrite firstn_pre. replace (k_body k ++ k_ws k ++ [BSL; NL] ++ concat (List.map src ks) ++ rest) with ((k_body k ++ k_ws k ++ [BSL; NL]) ++ concat (List.map src ks) ++ rest) by (rewrite <- !app_assoc; reflexivity). rewrite skipn_pre, IH by (assumption || (cbn in L; lia)). reflexivity.
Qed.
(** The lines as they are after alignment. *)
Definition redone (k : cont) : cont := Cont (k_body k) (k_pad k) [].
Lemma redone_ok : forall k, cont_ok k -> cont_ok (redone k) /\ src (redone k) = dst k.
Proof.
  intros k (A & B & C & D & E). split; [|reflexivity]. split; [|split; [intros c []|split; [exact C|split; [|exact E]]]]; cbn [redone k_ws k_body].
  - intros c Hc. destruct (B c Hc); subst; reflexivity.
  - intros Q. destruct (B NL Q); discriminate.
Qed.
Lemma bodies_dst : forall fuel ks rest, Forall cont_ok ks -> ~ continued rest -> length ks <= fuel -> bodies fuel (concat (List.map dst ks) ++ rest) = (List.map k_body ks, rest).
Proof.
  intros fuel ks rest F N L. assert (E : List.map dst ks = List.map src (List.map redone ks)) by (rewrite map_map; apply map_ext; reflexivity). rewrite E, bodies_src.
  - rewrite map_map. reflexivity.
  - apply Forall_forall. intros k Hk. apply in_map_iff in Hk. destruct Hk as (k' & <- & Hk). apply redone_ok. exact (proj1 (Forall_forall _ _) F _ Hk).
  - exact N.
  - rewrite map_length. exact L.
Qed.
Lemma dst_length : forall ks, length ks <= length (concat (List.map dst ks)).
Proof. induction ks as [|k ks IH]; cbn [List.map concat length]; [lia|]. rewrite app_length. unfold dst at 1. rewrite !app_length. cbn [length]. lia. Qed.
Lemma src_length : forall ks, length ks <= length (concat (List.map src ks)).
Proof. intros ks. pose proof (src_two ks). lia. Qed.

(** Only the ruler and whether the first line is left alone matter of the alignment. *)
Lemma align_again : forall mode limit indentw usetabs tk s out, ~ In NUL s -> cpp_align mode limit indentw usetabs tk s = COut out ->
  ruler_for (alignment_of mode limit indentw usetabs out) = ruler_for (alignment_of mode limit indentw usetabs s) ->
  g_skip (alignment_of mode limit indentw usetabs out) = g_skip (alignment_of mode limit indentw usetabs s) ->
  cpp_align mode limit indentw usetabs tk out = COut out.
Proof.
  intros mode limit indentw usetabs tk s out NS H A A'. destruct (C24_blanks mode limit indentw usetabs tk s NS) as (ks & rest & E & F & N & D). rewrite H in D. destruct D as [L ->].
  assert (B1 : bodies (length s) s = (List.map k_body ks, rest)). { rewrite E at 2. apply bodies_src; [exact F|exact N|]. pose proof (src_length ks). rewrite E, app_length. lia. }
  set (out := concat (List.map dst ks) ++ rest) in *.
  assert (B2 : bodies (length out) out = (List.map k_body ks, rest)). { unfold out at 2. apply bodies_dst; [exact F|exact N|]. pose proof (dst_length ks). unfold out. rewrite app_length. lia. }
  assert (NX : nextline s <> None) by (intros Q; unfold cpp_align in H; rewrite Q in H; discriminate).
  assert (NY : nextline out <> None). { intros Q. destruct ks as [|k ks]; [cbn in L; lia|]. apply Forall_cons_iff in F. destruct F as [K _]. destruct (redone_ok k K) as [(A1 & _ & A2 & A3 & A4) _]. cbn [redone k_body k_ws] in *. unfold out in Q. cbn [List.map concat] in Q. unfold dst at 1 in Q. rewrite <- !app_assoc in Q. rewrite nextline_src in Q by assumption. discriminate. }
  clearbody out. unfold cpp_align in *. destruct (nextline s); [|congruence]. destruct (nextline out); [|congruence]. rewrite A, A', B2. rewrite B1 in H. exact H.
Qed.
(** If the alignment found in the result is the one it was made with, aligning it again
    changes nothing. *)
Theorem C74_align_partial : forall mode limit indentw usetabs tk s out, ~ In NUL s -> cpp_align mode limit indentw usetabs tk s = COut out ->
  alignment_of mode limit indentw usetabs out = alignment_of mode limit indentw usetabs s ->
  cpp_align mode limit indentw usetabs tk out = COut out.
Proof. intros mode limit indentw usetabs tk s out NS H A. apply (align_again _ _ _ _ _ s); auto; rewrite A; reflexivity. Qed.

(** One blank in front of every backslash is recognised as such, unless the lines are too
    long. *)
Lemma sense_ones : forall limit n ks rest, Forall cont_ok ks -> ~ continued rest -> (forall k, In k ks -> k_pad k = [SP]) ->
  match sense_lines limit n (concat (List.map dst ks) ++ rest) with None => True | Some l => forallb not_aligned l = true end.
Proof.
  intros limit. induction n as [|n IH]; intros ks rest F N P; [reflexivity|]. cbn [sense_lines]. destruct ks as [|k ks]; cbn [List.map concat app]; [rewrite (not_continued _ N); reflexivity|].
  apply Forall_cons_iff in F. destruct F as [K F]. destruct (redone_ok k K) as [(A1 & _ & A2 & A3 & A4) _]. cbn [redone k_body k_ws] in *. change (dst k) with (k_body k ++ k_pad k ++ [BSL; NL]). rewrite <- !app_assoc. rewrite nextline_src by assumption. destruct (_ <? 2); [exact I|]. destruct (limit <? _); [exact I|].
  replace (k_body k ++ k_pad k ++ [BSL; NL] ++ concat (List.map dst ks) ++ rest) with ((k_body k ++ k_pad k ++ [BSL; NL]) ++ concat (List.map dst ks) ++ rest) by (rewrite <- !app_assoc; reflexivity). rewrite skipn_pre. specialize (IH ks rest F N (fun x Hx => P x (or_intror Hx))). destruct (sense_lines limit n _) as [l|]; [|exact I].
  cbn [forallb]. rewrite <- !app_assoc, skipn_pre, (P k (or_introl eq_refl)), IH. reflexivity.
Qed.
(** If there is one already, recognising it does not depend on the rest. *)
Lemma sense_same : forall limit n ks rest l, Forall cont_ok ks -> ~ continued rest -> (forall k, In k ks -> k_pad k = [SP]) ->
  sense_lines limit n (concat (List.map src ks) ++ rest) = Some l -> forallb not_aligned l = true -> sense_lines limit n (concat (List.map dst ks) ++ rest) <> None.
Proof.
  intros limit. induction n as [|n IH]; intros ks rest l F N P E O; [discriminate|]. cbn [sense_lines] in *. destruct ks as [|k ks]; cbn [List.map concat app] in *; [rewrite (not_continued _ N) in *; discriminate|].
  apply Forall_cons_iff in F. destruct F as [K F]. destruct (redone_ok k K) as [(A1 & _ & A2 & A3 & A4) _]. destruct K as (B1 & _ & _ & B3 & _). cbn [redone k_body k_ws] in *. change (dst k) with (k_body k ++ k_pad k ++ [BSL; NL]). change (src k) with (k_body k ++ k_ws k ++ [BSL; NL]) in E. rewrite <- !app_assoc in *. rewrite nextline_src in * by assumption.
  set (r := concat (List.map src ks) ++ rest) in *. destruct (_ <? 2) eqn:E1 in E; [discriminate|]. destruct (limit <? _) eqn:E2 in E; [discriminate|]. destruct (sense_lines limit n _) as [l'|] eqn:E3 in E; [|discriminate]. injection E as <-. cbn [forallb] in O. apply andb_true_iff in O. destruct O as [O1 O2]. unfold not_aligned in O1. cbn [l_indent] in O1. rewrite skipn_pre in O1.
  assert (W : k_ws k = [SP]).
  { clear - O1 B1. destruct (k_ws k) as [|c w]; [cbn in O1; discriminate|]. destruct w as [|d w]; cbn [app starts_with] in O1.
    - apply andb_true_iff in O1. destruct O1 as [O1 _]. apply Ascii.eqb_eq in O1. congruence.
    - apply andb_true_iff in O1. destruct O1 as [_ O1]. apply andb_true_iff in O1. destruct O1 as [O1 _]. apply Ascii.eqb_eq in O1. specialize (B1 d (or_intror (or_introl eq_refl))). subst d. discriminate. }
  rewrite (P k (or_introl eq_refl)). rewrite W in E1, E2, E3. rewrite E1.
  assert (CUT : forall t, firstn (length (k_body k ++ [SP] ++ [BSL; NL]) - 1) (k_body k ++ [SP] ++ [BSL; NL] ++ t) = k_body k ++ [SP; BSL]).
  { intros t. replace (length (k_body k ++ [SP] ++ [BSL; NL]) - 1) with (length (k_body k ++ [SP; BSL])) by (rewrite !app_length; cbn [length app]; lia). replace (k_body k ++ [SP] ++ [BSL; NL] ++ t) with ((k_body k ++ [SP; BSL]) ++ NL :: t) by (rewrite <- app_assoc; reflexivity). apply firstn_pre. }
  rewrite CUT in *. rewrite E2.
  assert (SK : forall t, skipn (length (k_body k ++ [SP] ++ [BSL; NL])) (k_body k ++ [SP] ++ [BSL; NL] ++ t) = t).
  { intros t. replace (k_body k ++ [SP] ++ [BSL; NL] ++ t) with ((k_body k ++ [SP] ++ [BSL; NL]) ++ t) by (rewrite <- !app_assoc; reflexivity). apply skipn_pre. }
  rewrite SK in *. pose proof (IH ks rest l' F N (fun x Hx => P x (or_intror Hx)) E3 O2) as Q. destruct (sense_lines limit n (concat (List.map dst ks) ++ rest)); [discriminate|congruence].
Qed.
(** A single blank in front of the backslashes, asked for or found: aligning once more changes
    nothing. *)
Theorem C74_align_blank : forall mode limit indentw usetabs tk s out, ~ In NUL s -> cpp_align mode limit indentw usetabs tk s = COut out ->
  (mode = DontAlign /\ sense_alignment limit s = None) \/ (exists a, sense_alignment limit s = Some a /\ g_mode a = DontAlign) ->
  cpp_align mode limit indentw usetabs tk out = COut out.
Proof.
  intros mode limit indentw usetabs tk s out NS H C. apply (align_again _ _ _ _ _ s); auto.
  all: destruct (align_spec mode limit indentw usetabs tk s NS) as (ks & rest & E & F & N & D); rewrite H in D; destruct D as (D1 & D2 & D3); cbn zeta in D3.
  all: assert (M : g_mode (alignment_of mode limit indentw usetabs s) = DontAlign) by (unfold alignment_of; destruct C as [[-> ->]|(a & -> & Q)]; [reflexivity|exact Q]).
  all: assert (G : g_skip (alignment_of mode limit indentw usetabs s) = false) by (destruct (g_skip (alignment_of mode limit indentw usetabs s)) eqn:Q; [apply skip_ok in Q; congruence|reflexivity]).
  all: rewrite G in D3; unfold lined_up in D3; rewrite M in D3; assert (P : forall k, In k ks -> k_pad k = [SP]) by (intros k Hk; apply (D3 k Hk)).
  all: assert (Q : g_mode (alignment_of mode limit indentw usetabs out) = DontAlign /\ g_skip (alignment_of mode limit indentw usetabs out) = false).
  1,3: unfold alignment_of, sense_alignment; pose proof (sense_ones limit 3 ks rest F N P) as O; rewrite <- D2 in O; destruct (sense_lines limit 3 out) as [l|] eqn:EL; [rewrite O; auto|];
    destruct C as [[-> _]|(a & Q & Qa)]; [auto|]; exfalso; unfold sense_alignment in Q; destruct (sense_lines limit 3 s) as [l|] eqn:ES; [|discriminate]; destruct (forallb not_aligned l) eqn:EO; [rewrite E in ES; apply (sense_same limit 3 ks rest l F N P ES EO); rewrite <- D2; exact EL|];
    destruct (_ && _); [injection Q as <-; discriminate|discriminate].
  all: destruct Q as [Q1 Q2].
  - unfold ruler_for. rewrite Q1, M. reflexivity.
  - rewrite Q2, G. reflexivity.
Qed.

(** Lines of the same length, a shorter one further on, aligned to the left with spaces. *)
Definition again_input : bytes := s2b "define x(a)" ++ s2b "  " ++ [BSL; NL] ++ s2b "first(a, a)" ++ s2b "   " ++ [BSL; NL] ++ s2b "other(a, a)" ++ s2b "    " ++ [BSL; NL] ++ s2b "last(a)" ++ s2b "  " ++ [BSL; NL] ++ s2b "end".
Definition again_output (w : bytes) : bytes := s2b "define x(a)" ++ s2b " " ++ [BSL; NL] ++ s2b "first(a, a)" ++ s2b " " ++ [BSL; NL] ++ s2b "other(a, a)" ++ s2b " " ++ [BSL; NL] ++ s2b "last(a)" ++ w ++ [BSL; NL] ++ s2b "end".
(** In general a second run does change something: the first three lines happen to end in the
    same column and get a single blank, which is then taken for the way all lines are to be
    continued; the fourth, aligned by the first run, is moved by the second. *)
Theorem C74_align_refuted : exists limit indentw s out out', ~ In NUL s /\ indentw <= limit /\
  cpp_align Left limit indentw false tok0 s = COut out /\ cpp_align Left limit indentw false tok0 out = COut out' /\ out' <> out /\
  out = again_output (s2b "     ") /\ out' = again_output (s2b " ").
Proof.
  exists 80, 8, again_input, (again_output (s2b "     ")), (again_output (s2b " ")). split; [intros Q; vm_compute in Q; intuition discriminate|]. split; [lia|]. split; [vm_compute; reflexivity|]. split; [vm_compute; reflexivity|]. split; [intros Q; vm_compute in Q; discriminate|]. auto.
Qed.

(** ** Examples *)
(** Aligned to the right and left alone; one blank asked for; one blank found. *)
Example C74_ex_align : exists out, ~ In NUL again_input /\ cpp_align Right 80 8 false tok0 again_input = COut out /\ out <> again_input /\ alignment_of Right 80 8 false out = alignment_of Right 80 8 false again_input.
Proof.
  eexists. split; [intros Q; vm_compute in Q; intuition discriminate|]. split; [vm_compute; reflexivity|]. split; [intros Q; vm_compute in Q; discriminate|]. vm_compute. reflexivity.
Qed.
Example C74_ex_blank : sense_alignment 80 again_input = None /\ cpp_align DontAlign 80 8 true tok0 again_input = COut (again_output (s2b " ")) /\
  sense_alignment 80 (again_output (s2b "   ")) = Some (Alignment DontAlign 0 false false) /\ cpp_align Left 80 8 true tok0 (again_output (s2b "   ")) = COut (again_output (s2b " ")).
Proof. vm_compute. repeat split. Qed.

Print Assumptions C74_align_partial.
Print Assumptions C74_align_blank.
Print Assumptions C74_align_refuted.
