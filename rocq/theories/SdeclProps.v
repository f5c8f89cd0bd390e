(** C64: grouping and sorting of local variables. *)
From Coq Require Import Permutation Sorted String.
From Verif Require Import Base TokenModel UtilModel StreamModel StreamProofs StreamProps TokListModel TokListProofs StaticModel ForwardProofs SdeclModel SdeclProofs SdeclLeave SdeclSpec SdeclCollect SdeclMain.
From Verif Require IncludeProps.
Local Open Scope list_scope.

(** The block is rewritten without a fault.  Each piece stays in place without the variables moved,
    the commas that go along and, if no variable is left, altogether; behind the semicolon of a
    declaration there are new declarations, each of variables with the same type and number of
    stars, all of them, in order of their names.  Nothing with a comment or directive is touched,
    and tokens keep their text and what is attached to them. *)
Theorem C64_grouped : forall qsort E x ps, IncludeProps.qsort_ok qsort -> ready E x -> x_toks x = flat_map ptoks ps -> Forall (called x) ps ->
  (forall t, In t (x_toks x) -> ~ In NUL (n_str (x_heap x t))) ->
  exists y gs, simple_decl qsort (flat_map (pcalls x) ps) x = Some y /\ ready E y /\ keeps x y /\
    x_toks y = flat_map (fun p => rest x ps p ++ flat_map (fun g => if closes p (g_after g) then ptoks (gdecl g) else []) gs) ps /\
    Forall (stands x y ps) gs /\ NoDup (map g_class gs) /\ (forall c, In c (moved x ps) -> In (class x c) (map g_class gs)) /\
    (forall t, In t (x_toks x) -> clear x t = false -> In t (x_toks y)).
Proof. intros qsort E x ps Q R EL CA NN. exact (grouped E x R ps EL CA NN qsort Q). Qed.

(** What is left of each declaration is one again, unless a comma is in the way that has a comment. *)
Theorem C64_left : forall E x ps p, ready E x -> x_toks x = flat_map ptoks ps -> Forall (called x) ps -> In p ps -> psettled x p = true ->
  exists q, rest x ps p = ptoks q /\ remains x p q.
Proof. intros E x ps p R EL CA I S. exact (left_over E x R ps EL CA p I S). Qed.

(** Words that are not empty and have no blank in them are told apart when joined by blanks. *)
Lemma split_blank : forall (a b : bytes) u v, ~ In SP a -> ~ In SP b -> a ++ SP :: u = b ++ SP :: v -> a = b /\ u = v.
Proof.
  induction a as [|c a IH]; intros [|d b] u v Ha Hb H; cbn in H; inversion H.
  - auto.
  - subst. exfalso. apply Hb. left. reflexivity.
  - subst. exfalso. apply Ha. left. reflexivity.
  - subst. destruct (IH b u v) as [-> ->]; auto. { intro K. apply Ha. right. exact K. } { intro K. apply Hb. right. exact K. }
Qed.
Lemma joined_cons : forall w l, l <> [] -> joined (w :: l) = w ++ SP :: joined l.
Proof. intros w [|v l] H; [congruence|reflexivity]. Qed.
Lemma joined_inj : forall l m, Forall (fun w => w <> [] /\ ~ In SP w) l -> Forall (fun w => w <> [] /\ ~ In SP w) m -> joined l = joined m -> l = m.
Proof.
  induction l as [|w l IH]; intros m Fl Fm H.
  - destruct m as [|v m]; [reflexivity|]. inversion Fm as [|? ? [V _] ?]. subst. destruct m as [|u m].
    + cbn in H. congruence.
    + rewrite joined_cons in H by discriminate. destruct v; discriminate.
  - inversion Fl as [|? ? [W1 W2] Fl']. subst. destruct m as [|v m].
    { destruct l as [|u l]; [cbn in H; congruence|]. rewrite joined_cons in H by discriminate. destruct w; discriminate. }
    inversion Fm as [|? ? [V1 V2] Fm']. subst. destruct l as [|u l], m as [|z m].
    + cbn in H. congruence.
    + rewrite (joined_cons v) in H by discriminate. cbn [joined] in H. exfalso. apply W2. rewrite H. apply in_or_app. right. left. reflexivity.
    + rewrite (joined_cons w) in H by discriminate. cbn [joined] in H. exfalso. apply V2. rewrite <- H. apply in_or_app. right. left. reflexivity.
    + rewrite (joined_cons w), (joined_cons v) in H by discriminate. destruct (split_blank _ _ _ _ W2 V2 H) as [-> J]. f_equal. apply IH; auto.
Qed.
Lemma agree_matches : forall x ps, agree x ps -> matches x ps.
Proof.
  intros x ps A ty n vs ty' n' vs' I J _ _ K. destruct (A ty n vs I) as [F G]. destruct (A ty' n' vs' J) as [F' _]. eapply G; [exact J|].
  apply joined_inj; auto.
Qed.

(** The same variables are declared with the same types, unless types differ in stars alone. *)
Theorem C64_declared : forall qsort E x ps, IncludeProps.qsort_ok qsort -> ready E x -> x_toks x = flat_map ptoks ps -> Forall (called x) ps ->
  (forall t, In t (x_toks x) -> ~ In NUL (n_str (x_heap x t))) -> Forall (fun p => psettled x p = true) ps -> agree x ps ->
  exists y qs, simple_decl qsort (flat_map (pcalls x) ps) x = Some y /\ x_toks y = flat_map ptoks qs /\ Permutation (flat_map (declared y) qs) (flat_map (declared x) ps).
Proof.
  intros qsort E x ps Q R EL CA NN ST AG. destruct (grouped E x R ps EL CA NN qsort Q) as (y & gs & E1 & _ & K & E2 & FS & ND & HC & _).
  destruct (same_variables E x R ps EL CA y gs (agree_matches _ _ AG) ST K E2 FS ND HC) as (qs & E3 & P). exists y, qs. auto.
Qed.

(** ** Examples *)
Fixpoint nodupb (l : list id) : bool := match l with [] => true | t :: l => negb (existsb (Nat.eqb t) l) && nodupb l end.
Definition readyb (x : lex) : bool :=
  nodupb (whole (x_heap x) (x_toks x)) && forallb (fun t => match n_pre (x_heap x t) with [] => (n_refs (x_heap x t) =? 1)%nat | _ => false end) (x_toks x) &&
  match rev (x_toks x) with e :: b => ttype_eqb (tyof x e) T_EOF && forallb (fun t => negb (ttype_eqb (tyof x t) T_EOF)) b | [] => false end &&
  forallb (fun i => i <? x_next x)%nat (whole (x_heap x) (x_toks x)) && forallb (fun i => forallb (fun s => s <? x_next x)%nat (n_suf (x_heap x i))) (seq 0 (x_next x)).
Lemma readyb_ready : forall x, readyb x = true -> ready (fun _ => 0%nat) x.
Proof.
  intros x H. unfold readyb in H. repeat rewrite andb_true_iff in H. destruct H as [[[[H1 H2] H3] H4] H5]. rewrite forallb_forall in H2, H4, H5.
  assert (P : forall t, In t (x_toks x) -> n_pre (x_heap x t) = [] /\ n_refs (x_heap x t) = 1%nat). { intros t I. specialize (H2 t I). destruct (n_pre (x_heap x t)); [|discriminate]. apply Nat.eqb_eq in H2. auto. }
  constructor.
  - constructor.
    + clear -H1. induction (whole (x_heap x) (x_toks x)) as [|t l IH]; [constructor|]. cbn in H1. apply andb_true_iff in H1. destruct H1 as [A B]. constructor; [|auto]. intros I. apply negb_true_iff in A. assert (K : existsb (Nat.eqb t) l = true) by (apply existsb_exists; exists t; split; [exact I|apply Nat.eqb_refl]). congruence.
    + intros t d I J. rewrite (proj1 (P t I)) in J. destruct J.
    + intros t I. destruct (P t I) as [A B]. rewrite A, B. reflexivity.
  - destruct (rev (x_toks x)) as [|e b] eqn:Er; [discriminate|]. apply andb_true_iff in H3. destruct H3 as [A B]. exists (rev b), e. split; [rewrite <- (rev_involutive (x_toks x)), Er; reflexivity|]. split; [apply ttype_eqb_eq; exact A|].
    apply Forall_forall. intros t I. apply in_rev in I. rewrite forallb_forall in B. specialize (B t I). apply negb_true_iff, ttype_eqb_neq in B. exact B.
  - intros t d I J. rewrite (proj1 (P t I)) in J. destruct J.
  - intros i I. apply Nat.ltb_lt. apply H4. exact I.
  - reflexivity.
  - intros i s L I. assert (K : In i (seq 0 (x_next x))) by (apply in_seq; lia). specialize (H5 i K). rewrite forallb_forall in H5. apply Nat.ltb_lt. apply H5. exact I.
Qed.
Definition ty_of (w : string) : ttype :=
  match w with
  | "," => T_COMMA | ";" => T_SEMI | "*" => T_STAR | "=" => T_EQUAL | "&" => T_AMP
  | "int" => T_INT | "char" => T_CHAR | "const" => T_CONST | "struct" => T_STRUCT | "1" => T_LITERAL | "" => T_EOF | _ => T_IDENT end%string.
Definition is_note (w : string) : bool := match w with String "/" _ => true | _ => false end.
(** A stream of words; a comment is behind the word before it. *)
Fixpoint nodes (ws : list string) (i : nat) : list node * list id :=
  match ws with
  | [] => ([], [])
  | w :: r =>
     let nt := Node (if is_note w then T_COMMENT else ty_of w) 0 1 1 (s2b w) 1 true [] (match r with v :: _ => if is_note v then [S i] else [] | _ => [] end) None None None in
     let (ns, ts) := nodes r (S i) in (nt :: ns, if is_note w then ts else i :: ts)
  end.
Definition blk (ws : list string) : lex := let (n, t) := nodes ws 0 in stream n t.
Definition words (x : lex) : list string := map (fun t => string_of_list_ascii (n_str (x_heap x t))) (x_toks x).
Definition run (ps : list piece) (x : lex) : option lex := simple_decl IncludeProps.isort (flat_map (pcalls x) ps) x.

(** int z = 1, y; int b = 1, c, d = 1; int a, x; char *q, p; *)
Definition ex_sdecl : lex := blk ["int";"z";"=";"1";",";"y";";"; "int";"b";"=";"1";",";"c";",";"d";"=";"1";";"; "int";"a";",";"x";";"; "char";"*";"q";",";"p";";"; ""]%string.
Definition ex_pieces : list piece :=
  [Declares [0] 0 [Var [1;2;3] 4; Var [5] 6]; Declares [7] 0 [Var [8;9;10] 11; Var [12] 13; Var [14;15;16] 17]; Declares [18] 0 [Var [19] 20; Var [21] 22]; Declares [23] 1 [Var [24;25] 26; Var [27] 28]; Other [29] []]%nat.
Definition is_ty (x : lex) (ty : ttype) (t : id) : bool := ttype_eqb (tyof x t) ty.
Definition calledb (x : lex) (p : piece) : bool :=
  match p with
  | Other _ cs => match cs with [] => true | _ => false end
  | Declares ty n vs =>
      match ty with [] => false | _ => true end && negb (is_ty x T_STAR (last ty 0%nat)) && forallb (fun t => negb (is_ty x T_SEMI t) && negb (is_ty x T_EOF t)) ty &&
      forallb (is_ty x T_STAR) (firstn n (flat_map vtoks vs)) && negb (is_ty x T_LBRACE (hd 0%nat (flat_map vtoks vs))) &&
      match rev vs with v :: us => is_ty x T_SEMI (w_delim v) && forallb (fun u => is_ty x T_COMMA (w_delim u)) us && forallb (fun u => match w_toks u with [] => false | _ => true end) vs | [] => false end
  end.
Lemma calledb_called : forall x p, calledb x p = true -> called x p.
Proof.
  intros x [l cs|ty n vs] H; cbn [calledb called] in *; [destruct cs; [constructor|discriminate]|]. unfold is_ty in H. repeat rewrite andb_true_iff in H. destruct H as [[[[[H1 H2] H3] H4] H5] H6].
  split; [destruct ty; discriminate|]. split; [apply negb_true_iff, ttype_eqb_neq in H2; exact H2|]. split; [|split; [|split]].
  - apply Forall_forall. intros t I. rewrite forallb_forall in H3. specialize (H3 t I). apply andb_true_iff in H3. destruct H3 as [A B]. apply negb_true_iff, ttype_eqb_neq in A. apply negb_true_iff, ttype_eqb_neq in B. auto.
  - apply Forall_forall. intros t I. rewrite forallb_forall in H4. apply ttype_eqb_eq. apply H4. exact I.
  - apply negb_true_iff, ttype_eqb_neq in H5. exact H5.
  - destruct (rev vs) as [|v us] eqn:Er; [discriminate|]. repeat rewrite andb_true_iff in H6. destruct H6 as [[A B] C]. exists (rev us), v. split; [rewrite <- (rev_involutive vs), Er; reflexivity|]. split; [apply ttype_eqb_eq; exact A|]. split.
    + apply Forall_forall. intros u I. apply in_rev in I. rewrite forallb_forall in B. apply ttype_eqb_eq. apply B. exact I.
    + right. apply Forall_forall. intros u I. rewrite forallb_forall in C. specialize (C u I). destruct (w_toks u); discriminate.
Qed.
Lemma all_called : forall x ps, forallb (calledb x) ps = true -> Forall (called x) ps.
Proof. intros x ps H. apply Forall_forall. intros p I. apply calledb_called. rewrite forallb_forall in H. auto. Qed.
Lemma no_nul : forall x, forallb (fun t => forallb (fun c => negb (Ascii.eqb c NUL)) (n_str (x_heap x t))) (x_toks x) = true -> forall t, In t (x_toks x) -> ~ In NUL (n_str (x_heap x t)).
Proof. intros x H t I J. rewrite forallb_forall in H. specialize (H t I). rewrite forallb_forall in H. specialize (H _ J). discriminate. Qed.
Definition agreeb (x : lex) (ps : list piece) : bool :=
  forallb (fun p => match p with Declares ty _ _ => forallb (fun w => negb (match w with [] => true | _ => false end) && negb (existsb (Ascii.eqb SP) w)) (starless x ty) | _ => true end) ps &&
  forallb (fun p => forallb (fun q => match p, q with
    | Declares ty _ _, Declares ty' _ _ => (if list_eq_dec (list_eq_dec ascii_dec) (starless x ty) (starless x ty') then false else true) || (if list_eq_dec (list_eq_dec ascii_dec) (texts x ty) (texts x ty') then true else false)
    | _, _ => true end) ps) ps.
Lemma agreeb_agree : forall x ps, agreeb x ps = true -> agree x ps.
Proof.
  intros x ps H ty n vs I. unfold agreeb in H. rewrite andb_true_iff in H. destruct H as [W H]. split.
  - rewrite forallb_forall in W. specialize (W _ I). cbn beta iota in W. rewrite forallb_forall in W. apply Forall_forall. intros w J. specialize (W w J).
    rewrite andb_true_iff in W. destruct W as [W1 W2]. split. { destruct w; [discriminate|congruence]. }
    intro K. apply negb_true_iff in W2. assert (existsb (Ascii.eqb SP) w = true) as Q; [|congruence]. apply existsb_exists. exists SP. split; [exact K|reflexivity].
  - intros ty' n' vs' J K. rewrite forallb_forall in H. specialize (H _ I). rewrite forallb_forall in H. specialize (H _ J). cbn beta iota in H.
    destruct (list_eq_dec (list_eq_dec ascii_dec) (starless x ty) (starless x ty')); [|contradiction]. destruct (list_eq_dec (list_eq_dec ascii_dec) (texts x ty) (texts x ty')); [assumption|discriminate].
Qed.
Lemma all_settled : forall x ps, forallb (psettled x) ps = true -> Forall (fun p => psettled x p = true) ps.
Proof. intros x ps H. apply Forall_forall. intros p I. rewrite forallb_forall in H. auto. Qed.
Example ex_sdecl_meets : ready (fun _ => 0%nat) ex_sdecl /\ x_toks ex_sdecl = flat_map ptoks ex_pieces /\ Forall (called ex_sdecl) ex_pieces /\
  (forall t, In t (x_toks ex_sdecl) -> ~ In NUL (n_str (x_heap ex_sdecl t))) /\ Forall (fun p => psettled ex_sdecl p = true) ex_pieces /\ agree ex_sdecl ex_pieces.
Proof.
  split; [apply readyb_ready; vm_compute; reflexivity|]. split; [reflexivity|]. split; [apply all_called; vm_compute; reflexivity|]. split; [apply no_nul; vm_compute; reflexivity|].
  split; [apply all_settled; vm_compute; reflexivity|apply agreeb_agree; vm_compute; reflexivity].
Qed.
(** int z = 1; int b = 1, d = 1; int a, c, x, y; char *q; char p; *)
Example C64_ex : option_map words (run ex_pieces ex_sdecl) =
  Some ["int";"z";"=";"1";";"; "int";"b";"=";"1";",";"d";"=";"1";";"; "int";"a";",";"c";",";"x";",";"y";";"; "char";"*";"q";";"; "char";"p";";"; ""]%string.
Proof. vm_compute. reflexivity. Qed.

(** ** Faults *)
Definition input (x : lex) (ps : list piece) : Prop :=
  ready (fun _ => 0%nat) x /\ x_toks x = flat_map ptoks ps /\ Forall (called x) ps /\ (forall t, In t (x_toks x) -> ~ In NUL (n_str (x_heap x t))).
Ltac is_input := split; [apply readyb_ready; vm_compute; reflexivity|]; split; [reflexivity|]; split; [apply all_called; vm_compute; reflexivity|apply no_nul; vm_compute; reflexivity].
(** A comment behind a comma: what is left of the declaration ends in a comma, as in int a, ; int b; *)
Theorem C64_comma_refuted : exists x ps y a c s b, input x ps /\ run ps x = Some y /\
  (forall a c s b, x_toks x = a ++ c :: s :: b -> ~ (tyof x c = T_COMMA /\ tyof x s = T_SEMI)) /\ x_toks y = a ++ c :: s :: b /\ tyof y c = T_COMMA /\ tyof y s = T_SEMI.
Proof.
  pose (x := blk ["int";"a";",";"/* x */";"b";";";""]%string). pose (ps := [Declares [0] 0 [Var [1] 2; Var [4] 5]; Other [6] []]%nat).
  destruct (run ps x) as [y|] eqn:Ey; [|exfalso; revert Ey; vm_compute; discriminate]. exists x, ps, y, [0;1]%nat, 2%nat, 5%nat, [7;4;8;6]%nat. split; [is_input|]. split; [exact Ey|]. split.
  - intros a c s b Q [Tc Ts]. change (x_toks x) with [0;1;2;4;5;6]%nat in Q. do 5 (destruct a as [|? a]; [injection Q as <- <- _; vm_compute in Tc, Ts; discriminate|injection Q as _ Q]). destruct a as [|? [|? ?]]; discriminate.
  - revert Ey. vm_compute. intros Ey. injection Ey as <-. repeat split; reflexivity.
Qed.
(** Types that differ in stars alone: char const a; char *const p; becomes char const a, p; *)
Theorem C64_stars_refuted : exists x ps y t, input x ps /\ Forall (fun p => psettled x p = true) ps /\ run ps x = Some y /\ In t (x_toks x) /\ tyof x t = T_STAR /\ forall u, In u (x_toks y) -> tyof y u <> T_STAR.
Proof.
  pose (x := blk ["char";"const";"a";";";"char";"*";"const";"p";";";""]%string). pose (ps := [Declares [0;1] 0 [Var [2] 3]; Declares [4;5;6] 0 [Var [7] 8]; Other [9] []]%nat).
  destruct (run ps x) as [y|] eqn:Ey; [|exfalso; revert Ey; vm_compute; discriminate]. exists x, ps, y, 5%nat. split; [is_input|]. split; [apply all_settled; vm_compute; reflexivity|]. split; [exact Ey|]. split; [vm_compute; tauto|]. split; [reflexivity|].
  revert Ey. vm_compute. intros Ey. injection Ey as <-. cbn. intros u I. repeat (destruct I as [<-|I]; [discriminate|]). destruct I.
Qed.
(** A variable ends up behind its use: int f, *p = &f; becomes int *p = &f; int f; *)
Theorem C64_use_refuted : exists x ps y u v, input x ps /\ Forall (fun p => psettled x p = true) ps /\ agree x ps /\ run ps x = Some y /\ n_str (x_heap x u) = n_str (x_heap x v) /\
  (exists a b c, x_toks x = a ++ v :: b ++ u :: c) /\ (exists a b c, x_toks y = a ++ u :: b ++ v :: c).
Proof.
  pose (x := blk ["int";"f";",";"*";"p";"=";"&";"f";";";""]%string). pose (ps := [Declares [0] 0 [Var [1] 2; Var [3;4;5;6;7] 8]; Other [9] []]%nat).
  destruct (run ps x) as [y|] eqn:Ey; [|exfalso; revert Ey; vm_compute; discriminate]. exists x, ps, y, 7%nat, 1%nat. split; [is_input|]. split; [apply all_settled; vm_compute; reflexivity|]. split; [apply agreeb_agree; vm_compute; reflexivity|]. split; [exact Ey|]. split; [reflexivity|]. split.
  - exists [0]%nat, [2;3;4;5;6]%nat, [8;9]%nat. reflexivity.
  - revert Ey. vm_compute. intros Ey. injection Ey as <-. exists [0;3;4;5;6]%nat, [8;10]%nat, [11;9]%nat. reflexivity.
Qed.

Print Assumptions C64_grouped.
Print Assumptions C64_left.
Print Assumptions C64_declared.
Print Assumptions C64_comma_refuted.
Print Assumptions C64_stars_refuted.
Print Assumptions C64_use_refuted.
