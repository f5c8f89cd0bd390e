(** The comma behind the last field of braces and the alignment of designators: C70. *)
From Verif Require Import Base TokenModel StreamModel StreamProofs TokListModel TokListProofs StreamProps TokListProps StaticModel StaticProps StmtModel StmtProps ForwardProofs BracesModel.

(** ** Specification *)
(** Of a list of suffixes the ones that are white space, and the others, each in order. *)
Inductive parted (x : lex) : list id -> list id -> list id -> Prop :=
| pt_nil : parted x [] [] []
| pt_space : forall s l k m, tyof x s = T_SPACE -> parted x l k m -> parted x (s :: l) k (s :: m)
| pt_other : forall s l k m, tyof x s <> T_SPACE -> parted x l k m -> parted x (s :: l) (s :: k) m.
(** A line ends behind the token: white space other than that on a line. *)
Definition ends_line (x : lex) (t : id) : Prop := exists s, In s (n_suf (x_heap x t)) /\ tyof x s = T_SPACE /\ N.land (n_flags (x_heap x s)) F_OPTSPACE = 0%N.
(** The last token in front of the brace is neither a comma nor may it be the end of a macro,
    and the brace is on a line of its own. *)
Definition lacks_comma (x : lex) (pv : id) : Prop := tyof x pv <> T_COMMA /\ tyof x pv <> T_RPAREN /\ ends_line x pv.
(** A comma behind [pv] takes over the white space; nothing else changes. *)
Record with_comma (x : lex) (p : list id) (pv rb : id) (q : list id) (c : id) (y : lex) : Prop := {
  wc_toks : x_toks y = p ++ pv :: c :: rb :: q;
  wc_new : ~ In c (whole (x_heap x) (x_toks x));
  wc_comma : tyof y c = T_COMMA /\ n_str (x_heap y c) = s2b "," /\ n_pre (x_heap y c) = [];
  wc_line : n_lno (x_heap y c) = n_lno (x_heap x pv);
  wc_diff : N.land (n_flags (x_heap y c)) F_DIFF = N.land (n_flags (x_heap x pv)) F_DIFF;
  wc_spaces : parted x (n_suf (x_heap x pv)) (n_suf (x_heap y pv)) (n_suf (x_heap y c));
  wc_pv : x_heap y pv = set_suf (n_suf (x_heap y pv)) (x_heap x pv);
  wc_rest : forall i, i <> pv -> i <> c -> x_heap y i = x_heap x i;
  wc_state : x_cur y = x_cur x /\ x_err y = x_err x /\ x_peek y = x_peek x /\ x_log y = x_log x
}.

(** ** Proofs *)
Lemma parted_filter : forall x l, parted x l (filter (fun s => negb (ttype_eqb (tyof x s) T_SPACE)) l) (filter (fun s => ttype_eqb (tyof x s) T_SPACE) l).
Proof.
  intros x. induction l as [|s l IH]; cbn [filter]; [constructor|]. destruct (ttype_eqb (tyof x s) T_SPACE) eqn:E; cbn [negb]; constructor; auto; [apply ttype_eqb_eq, E|apply ttype_eqb_neq, E].
Qed.
Lemma ends_line_spec : forall x t, has_line1 (x_heap x) t = true <-> ends_line x t.
Proof.
  intros x t. unfold has_line1, ends_line. rewrite existsb_exists. split; intros (s & H1 & H2); exists s; (split; [exact H1|]).
  - apply andb_true_iff in H2. destruct H2 as [H2 H3]. split; [apply ttype_eqb_eq; exact H2|]. unfold has_flag in H3. rewrite negb_involutive in H3. apply N.eqb_eq. exact H3.
  - destruct H2 as [H2 H3]. apply andb_true_iff. split; [apply ttype_eqb_eq; exact H2|]. unfold has_flag. rewrite H3. reflexivity.
Qed.
Lemma prev_is : forall x p pv rb q, NoDup (x_toks x) -> x_toks x = p ++ pv :: rb :: q -> prev_of (x_toks x) rb = Some pv.
Proof. intros x p pv rb q ND Et. apply prev_adj; [exact ND|]. exists p, q. exact Et. Qed.

Theorem C70_comma : forall on x p pv rb q, NoDup (whole (x_heap x) (x_toks x)) -> small x -> x_toks x = p ++ pv :: rb :: q ->
  exists y, trailing_comma on rb x = Some y /\
    ((on = true /\ lacks_comma x pv /\ exists c, with_comma x p pv rb q c y) \/ (~ (on = true /\ lacks_comma x pv) /\ y = x)).
Proof.
  intros on x p pv rb q NDw SM Et. assert (ND := whole_toks _ _ NDw). unfold trailing_comma. destruct on; cbn [negb]; [|exists x; split; [reflexivity|]; right; split; [intros [K _]; discriminate|reflexivity]].
  rewrite (prev_is x p pv rb q ND Et). assert (LT : forall u, In u (x_toks x) -> u < x_next x) by (intros u Hu; apply SM; apply whole_in; exact Hu).
  destruct (ttype_eqb (tyof x pv) T_COMMA || ttype_eqb (tyof x pv) T_RPAREN || negb (has_line1 (x_heap x) pv)) eqn:B.
  - exists x. split; [reflexivity|]. right. split; [|reflexivity]. intros (_ & L1 & L2 & L3). apply ends_line_spec in L3. rewrite L3 in B. cbn [negb] in B. rewrite orb_false_r in B. apply orb_true_iff in B. destruct B as [B|B]; apply ttype_eqb_eq in B; contradiction.
  - apply orb_false_iff in B. destruct B as [B B3]. apply orb_false_iff in B. destruct B as [B1 B2]. apply ttype_eqb_neq in B1, B2. apply negb_false_iff in B3. apply ends_line_spec in B3.
    destruct (insert_after_spec pv comma_token x p (rb :: q) ND Et LT) as (y & Ey & Ty & Ny & Oy & TYy & STy & PRy & SFy & _ & LNy & _ & FLy & CUy & ERy & PKy & LGy & _). rewrite Ey. set (n := x_next x) in *.
    assert (Npv : pv <> n) by (assert (pv < n) by (apply LT; rewrite Et; apply in_or_app; right; left; reflexivity); lia).
    assert (NDS : NoDup (n_suf (x_heap x pv))). { assert (K := NDw). rewrite Et, whole_app, whole_cons in K. apply nodup_app_r in K. apply nodup_app_r in K. inversion K; subst. eapply nodup_app_l; eassumption. }
    assert (ES : n_suf (x_heap y pv) = n_suf (x_heap x pv)) by (rewrite Oy by exact Npv; reflexivity).
    assert (SL : forall s, In s (n_suf (x_heap x pv)) -> s <> n). { intros s Hs. assert (s < n); [|lia]. apply SM. apply (whole_suf _ _ pv); [rewrite Et; apply in_or_app; right; left; reflexivity|exact Hs]. }
    set (g := move_suffixes_if pv n T_SPACE (x_heap y)).
    destruct (move_if_spec T_SPACE pv n (n_suf (x_heap y pv)) [] (x_heap y) Npv ltac:(rewrite ES; exact NDS) eq_refl) as (A & B & C & _). cbn zeta in *. change (move_suffixes_if_loop (n_suf (x_heap y pv)) pv n T_SPACE (x_heap y)) with g in *.
    assert (F : forall i, g i = set_suf (n_suf (g i)) (x_heap y i)) by (intros i; apply move_if_frame).
    exists (set_heap g y). split; [reflexivity|]. left. split; [reflexivity|]. split; [repeat split; assumption|]. exists n. constructor; cbn [x_toks x_heap set_heap x_cur x_err x_peek x_log].
    + exact Ty.
    + intros K. apply SM in K. unfold n in K. lia.
    + unfold tyof. cbn [x_heap set_heap]. rewrite (F n). cbn [set_suf n_type n_str n_pre]. rewrite TYy, STy, PRy. auto.
    + rewrite (F n). cbn [set_suf n_lno]. exact LNy.
    + rewrite (F n). cbn [set_suf n_flags]. rewrite FLy. change (n_flags comma_token) with 0%N. rewrite N.lor_0_l, <- N.land_assoc, N.land_diag. reflexivity.
    + rewrite A, B, SFy, ES. cbn [app].
      assert (T : forall s, In s (n_suf (x_heap x pv)) -> n_type (x_heap y s) = tyof x s) by (intros s Hs; rewrite Oy by (apply SL; exact Hs); reflexivity).
      rewrite (filter_ext_in _ (fun s => negb (ttype_eqb (tyof x s) T_SPACE))), (filter_ext_in (fun s => ttype_eqb (n_type (x_heap y s)) T_SPACE) (fun s => ttype_eqb (tyof x s) T_SPACE)); [apply parted_filter| |]; intros s Hs; rewrite (T s Hs); reflexivity.
    + rewrite (F pv) at 1. rewrite Oy by exact Npv. reflexivity.
    + intros i N1 N2. rewrite C by assumption. apply Oy. exact N2.
    + auto.
Qed.

Lemma with_order : forall x p pv rb q c y, NoDup (whole (x_heap x) (x_toks x)) -> x_toks x = p ++ pv :: rb :: q -> with_comma x p pv rb q c y ->
  whole (x_heap y) (x_toks y) = whole (x_heap x) p ++ n_pre (x_heap x pv) ++ pv :: n_suf (x_heap y pv) ++ c :: n_suf (x_heap y c) ++ whole (x_heap x) (rb :: q).
Proof.
  intros x p pv rb q c y NDw Et W. assert (ND := whole_toks _ _ NDw). rewrite Et in ND. destruct (nodup_split _ _ _ ND) as [N1 N2].
  assert (NC : ~ In c (x_toks x)) by (intros K; apply (wc_new _ _ _ _ _ _ _ W); apply whole_in; exact K). rewrite Et in NC.
  assert (OT : forall l, ~ In pv l -> ~ In c l -> whole (x_heap y) l = whole (x_heap x) l).
  { intros l M1 M2. apply whole_ext. intros t Ht. rewrite (wc_rest _ _ _ _ _ _ _ W) by (intros ->; contradiction). auto. }
  rewrite (wc_toks _ _ _ _ _ _ _ W), whole_app, whole_cons, whole_cons. destruct (wc_comma _ _ _ _ _ _ _ W) as (_ & _ & ->). rewrite (OT p), (OT (rb :: q)); auto; try (intros K; apply NC; apply in_or_app; cbn; tauto).
  rewrite (wc_pv _ _ _ _ _ _ _ W). cbn [set_suf n_pre n_suf app]. reflexivity.
Qed.
(** In the order of the text: what is attached to the last token but for white space, then the
    comma, then the white space; the text around is the same. *)
Theorem C70_order : forall x p pv rb q y, NoDup (whole (x_heap x) (x_toks x)) -> small x -> x_toks x = p ++ pv :: rb :: q -> lacks_comma x pv -> trailing_comma true rb x = Some y ->
  exists c keep spaces, parted x (n_suf (x_heap x pv)) keep spaces /\ tyof y c = T_COMMA /\ n_str (x_heap y c) = s2b "," /\ ~ In c (whole (x_heap x) (x_toks x)) /\
    whole (x_heap x) (x_toks x) = whole (x_heap x) p ++ n_pre (x_heap x pv) ++ pv :: n_suf (x_heap x pv) ++ whole (x_heap x) (rb :: q) /\
    whole (x_heap y) (x_toks y) = whole (x_heap x) p ++ n_pre (x_heap x pv) ++ pv :: keep ++ c :: spaces ++ whole (x_heap x) (rb :: q).
Proof.
  intros x p pv rb q y NDw SM Et L E. destruct (C70_comma true x p pv rb q NDw SM Et) as (y' & E' & [(_ & _ & c & W)|(K & _)]); [|destruct K; auto]. rewrite E in E'. inversion E'; subst y'.
  exists c, (n_suf (x_heap y pv)), (n_suf (x_heap y c)). split; [apply (wc_spaces _ _ _ _ _ _ _ W)|]. destruct (wc_comma _ _ _ _ _ _ _ W) as (A & B & _). split; [exact A|]. split; [exact B|]. split; [apply (wc_new _ _ _ _ _ _ _ W)|].
  split; [rewrite Et, whole_app, whole_cons; reflexivity|]. apply with_order; assumption.
Qed.
(** Doing it again changes nothing. *)
Theorem C70_once : forall on x p pv rb q y, NoDup (whole (x_heap x) (x_toks x)) -> small x -> x_toks x = p ++ pv :: rb :: q -> trailing_comma on rb x = Some y -> trailing_comma on rb y = Some y.
Proof.
  intros on x p pv rb q y NDw SM Et E. destruct (C70_comma on x p pv rb q NDw SM Et) as (y' & E' & D). rewrite E in E'. inversion E'; subst y'. destruct D as [(-> & L & c & W)|(_ & ->)]; [|exact E].
  assert (NDy : NoDup (x_toks y)).
  { rewrite (wc_toks _ _ _ _ _ _ _ W). assert (ND := whole_toks _ _ NDw). assert (NC : ~ In c (x_toks x)) by (intros K; apply (wc_new _ _ _ _ _ _ _ W); apply whole_in; exact K). rewrite Et in ND, NC.
    replace (p ++ pv :: c :: rb :: q) with ((p ++ [pv]) ++ c :: rb :: q) by (rewrite <- app_assoc; reflexivity). replace (p ++ pv :: rb :: q) with ((p ++ [pv]) ++ rb :: q) in * by (rewrite <- app_assoc; reflexivity).
    apply (NoDup_Add (a := c) (l := (p ++ [pv]) ++ rb :: q)); [apply Add_app|]. split; assumption. }
  unfold trailing_comma. cbn [negb]. assert (Ty : x_toks y = (p ++ [pv]) ++ c :: rb :: q) by (rewrite <- app_assoc; apply (wc_toks _ _ _ _ _ _ _ W)).
  rewrite (prev_is y _ _ _ _ NDy Ty). destruct (wc_comma _ _ _ _ _ _ _ W) as (-> & _). reflexivity.
Qed.
(** The comma is not part of a comment, unless one up to the end of the line is attached to the
    last token. *)
Definition line_comment (x : lex) (t : id) : Prop := tyof x t = T_COMMENT /\ N.land (n_flags (x_heap x t)) F_COMMENT_C99 <> 0%N.
Theorem C70_effective_partial : forall x p pv rb q y, NoDup (whole (x_heap x) (x_toks x)) -> small x -> x_toks x = p ++ pv :: rb :: q -> lacks_comma x pv ->
  ~ line_comment x pv -> (forall s, In s (n_suf (x_heap x pv)) -> ~ line_comment x s) -> trailing_comma true rb x = Some y ->
  exists a u c b, whole (x_heap y) (x_toks y) = a ++ u :: c :: b /\ tyof y c = T_COMMA /\ ~ In c (whole (x_heap x) (x_toks x)) /\ ~ line_comment x u.
Proof.
  intros x p pv rb q y NDw SM Et L NP NL E. destruct (C70_order x p pv rb q y NDw SM Et L E) as (c & keep & sp & P & T & _ & N & _ & W).
  assert (K : forall l k m, parted x l k m -> forall s, In s k -> In s l). { induction 1; intros z Hz; cbn in *; [contradiction|right; auto|destruct Hz; auto]. }
  destruct keep as [|u k _] using rev_ind.
  - exists (whole (x_heap x) p ++ n_pre (x_heap x pv)), pv, c, (sp ++ whole (x_heap x) (rb :: q)). rewrite W, <- app_assoc. auto.
  - exists (whole (x_heap x) p ++ n_pre (x_heap x pv) ++ pv :: k), u, c, (sp ++ whole (x_heap x) (rb :: q)). split; [rewrite W; repeat (rewrite <- app_assoc; cbn [app]); reflexivity|]. split; [exact T|]. split; [exact N|].
    apply NL. apply (K _ _ _ P). apply in_or_app. right. left. reflexivity.
Qed.

(** The white space behind = goes behind the identifier, after what is there, if it has a tab. *)
Definition has_tab (x : lex) (t : id) : Prop := exists s r, In s (n_suf (x_heap x t)) /\ tyof x s = T_SPACE /\ N.land (n_flags (x_heap x s)) F_OPTSPACE <> 0%N /\ n_str (x_heap x s) = TAB :: r.
Lemma has_tab_spec : forall x t, has_tabs (x_heap x) t = true <-> has_tab x t.
Proof.
  intros x t. unfold has_tabs, has_tab. rewrite existsb_exists. split.
  - intros (s & H1 & H2). apply andb_true_iff in H2. destruct H2 as [H2 H3]. apply andb_true_iff in H2. destruct H2 as [H2 H4]. apply ttype_eqb_eq in H2. destruct (n_str (x_heap x s)) as [|c r] eqn:S; cbn [hd] in H3; [vm_compute in H3; discriminate|]. apply Ascii.eqb_eq in H3. subst c.
    exists s, r. repeat split; auto. intros K. unfold has_flag in H4. rewrite K in H4. discriminate.
  - intros (s & r & H1 & H2 & H3 & H4). exists s. split; [exact H1|]. apply andb_true_iff. split; [apply andb_true_iff; split; [apply ttype_eqb_eq; exact H2|]|rewrite H4; cbn [hd]; apply Ascii.eqb_eq; reflexivity].
    unfold has_flag. apply negb_true_iff. apply N.eqb_neq. exact H3.
Qed.
Theorem C70_align : forall x tk eq, wfs x -> NoDup (whole (x_heap x) (x_toks x)) -> In tk (x_toks x) -> tyof x tk <> T_EQUAL -> sees x (x_cur x) eq -> tyof x eq = T_EQUAL -> has_tab x eq ->
  exists keep spaces, parted x (n_suf (x_heap x eq)) keep spaces /\
    x_heap (field_align tk x) eq = set_suf keep (x_heap x eq) /\ x_heap (field_align tk x) tk = set_suf (n_suf (x_heap x tk) ++ spaces) (x_heap x tk) /\
    (forall i, i <> eq -> i <> tk -> x_heap (field_align tk x) i = x_heap x i) /\ x_toks (field_align tk x) = x_toks x /\ x_cur (field_align tk x) = x_cur x.
Proof.
  intros x tk eq W NDw Itk Ntk S T H. unfold field_align. rewrite (proj2 (peek_if_spec x W T_EQUAL eq) (conj S T)). rewrite (proj2 (has_tab_spec x eq) H). cbn [x_heap set_heap x_toks x_cur].
  assert (N : eq <> tk) by congruence. 
  assert (NDS : NoDup (n_suf (x_heap x eq))).
  { assert (I : In eq (x_toks x)). { destruct (pop_peek x W 0 (x_cur x) (here_cur x W)) as (t' & _ & S' & It & _). rewrite (sees_fun x W _ _ _ S S'). exact It. }
    destruct (in_split _ _ I) as (a & b & Et). assert (K := NDw). rewrite Et, whole_app, whole_cons in K. apply nodup_app_r in K. apply nodup_app_r in K. inversion K; subst. eapply nodup_app_l; eassumption. }
  destruct (move_if_spec T_SPACE eq tk (n_suf (x_heap x eq)) [] (x_heap x) N NDS eq_refl) as (A & B & C & _). cbn zeta in *. fold (move_suffixes_if eq tk T_SPACE (x_heap x)) in *.
  set (g := move_suffixes_if eq tk T_SPACE (x_heap x)) in *. assert (F : forall i, g i = set_suf (n_suf (g i)) (x_heap x i)) by (intros i; apply move_if_frame).
  eexists _, _. split; [apply parted_filter|]. split; [rewrite (F eq), A; reflexivity|]. split; [rewrite (F tk), B; reflexivity|]. auto.
Qed.
(** Otherwise nothing changes. *)
Theorem C70_align_not : forall x tk, wfs x -> (forall eq, sees x (x_cur x) eq -> tyof x eq = T_EQUAL -> ~ has_tab x eq) -> field_align tk x = x.
Proof.
  intros x tk W H. unfold field_align. destruct (peek_if_total x W T_EQUAL) as [(t & E)|E]; rewrite E; [|reflexivity]. apply (peek_if_spec x W) in E. destruct E as [S T].
  destruct (has_tabs (x_heap x) t) eqn:B; [|reflexivity]. apply has_tab_spec in B. destruct (H t S T B).
Qed.

(** ** Cases
    enum { A, B NEWLINE }: tokens 0 to 5, the comment (if any) is 6, the newline 7. *)
Definition br_tok (ty : ttype) (s : string) (suf : list id) : node := Node ty 0 1 1 (s2b s) 1 true [] suf None None None.
Definition ex_enum (suf : list id) (cflags : N) (comment : string) : lex := stream
  [br_tok T_ENUM "enum" []; br_tok T_LBRACE "{" []; br_tok T_IDENT "A" []; br_tok T_RBRACE "}" []; br_tok T_SEMI ";" []; br_tok T_EOF "" [];
   set_flags cflags (br_tok T_COMMENT comment []); set_flags F_OPTLINE (br_tok T_SPACE (String NL "") [])] [0; 1; 2; 3; 4; 5].
Definition with_suf (x : lex) (suf : list id) : lex := set_heap (modify (x_heap x) 2 (set_suf suf)) x.
Definition ex_block : lex := with_suf (ex_enum [] 0 " /* a */") [6; 7].
Definition ex_line : lex := with_suf (ex_enum [] F_COMMENT_C99 " // a") [6; 7].
Lemma nodupb : forall l : list id, (fix f (l : list id) := match l with [] => true | a :: r => negb (existsb (Nat.eqb a) r) && f r end) l = true -> NoDup l.
Proof.
  induction l as [|a l IH]; intros H; [constructor|]. apply andb_true_iff in H. destruct H as [H1 H2]. constructor; [|apply IH; exact H2].
  intros K. apply negb_true_iff in H1. assert (existsb (Nat.eqb a) l = true); [|congruence]. apply existsb_exists. exists a. split; [exact K|apply Nat.eqb_refl].
Qed.
Lemma smallb : forall x, forallb (fun t => t <? x_next x) (whole (x_heap x) (x_toks x)) = true -> small x.
Proof. intros x H t Ht. rewrite forallb_forall in H. apply Nat.ltb_lt. apply H. exact Ht. Qed.
Example C70_ex_comma : NoDup (whole (x_heap ex_block) (x_toks ex_block)) /\ small ex_block /\ x_toks ex_block = [0; 1] ++ 2 :: 3 :: [4; 5] /\ lacks_comma ex_block 2 /\
  (forall s, In s (n_suf (x_heap ex_block 2)) -> ~ line_comment ex_block s).
Proof.
  split; [apply nodupb; vm_compute; reflexivity|]. split; [apply smallb; vm_compute; reflexivity|]. split; [reflexivity|]. split.
  - split; [discriminate|]. split; [discriminate|]. exists 7. split; [right; left; reflexivity|]. split; reflexivity.
  - intros s [<-|[<-|[]]] [K1 K2]; [apply K2; reflexivity|discriminate].
Qed.
(** A comes with its comment, the comma, and then the newline. *)
Example C70_ex_order : match trailing_comma true 3 ex_block with Some y => whole (x_heap y) (x_toks y) = [0; 1; 2; 6; 8; 7; 3; 4; 5] /\ n_str (x_heap y 8) = s2b "," | None => False end.
Proof. vm_compute. split; reflexivity. Qed.
Definition ex_field : lex := set_cur (Some 2) (stream
  [br_tok T_LBRACE "{" []; br_tok T_PERIOD "." []; br_tok T_IDENT "a" []; br_tok T_EQUAL "=" [7]; br_tok T_LITERAL "1" []; br_tok T_RBRACE "}" []; br_tok T_EOF "" [];
   set_flags (N.lor F_OPTSPACE F_DISCARD) (br_tok T_SPACE (String TAB "") [])] [0; 1; 2; 3; 4; 5; 6]).
Example C70_ex_align : NoDup (whole (x_heap ex_field) (x_toks ex_field)) /\ In 2 (x_toks ex_field) /\ has_tab ex_field 3 /\ n_suf (x_heap (field_align 2 ex_field) 2) = [7] /\ n_suf (x_heap (field_align 2 ex_field) 3) = [].
Proof.
  split; [apply nodupb; vm_compute; reflexivity|]. split; [right; right; left; reflexivity|]. split; [|split; reflexivity].
  exists 7, []. split; [left; reflexivity|]. split; [reflexivity|]. split; [discriminate|reflexivity].
Qed.

(** ** What is false *)
(** With a comment up to the end of the line behind the last field the comma is put behind the
    comment, where it is part of the comment: of "A // a" becomes "A // a,", and the comma is
    still missing; formatted again it is "A // a,,". *)
Theorem C70_comment_refuted : exists x p pv rb q y a u c b,
  NoDup (whole (x_heap x) (x_toks x)) /\ small x /\ x_toks x = p ++ pv :: rb :: q /\ lacks_comma x pv /\ trailing_comma true rb x = Some y /\
  whole (x_heap y) (x_toks y) = a ++ u :: c :: b /\ tyof y c = T_COMMA /\ ~ In c (whole (x_heap x) (x_toks x)) /\ line_comment y u /\ ~ In NL (n_str (x_heap y u)).
Proof.
  destruct (trailing_comma true 3 ex_line) as [y|] eqn:E; [|vm_compute in E; discriminate].
  exists ex_line, [0; 1], 2, 3, [4; 5], y, [0; 1; 2], 6, 8, [7; 3; 4; 5].
  split; [apply nodupb; vm_compute; reflexivity|]. split; [apply smallb; vm_compute; reflexivity|]. split; [reflexivity|]. split.
  { split; [discriminate|]. split; [discriminate|]. exists 7. split; [right; left; reflexivity|]. split; reflexivity. }
  split; [exact E|]. assert (Y : y = match trailing_comma true 3 ex_line with Some y => y | None => ex_line end) by (rewrite E; reflexivity). rewrite Y.
  split; [vm_compute; reflexivity|]. split; [vm_compute; reflexivity|]. split; [vm_compute; intuition discriminate|]. split; [split; [vm_compute; reflexivity|vm_compute; discriminate]|]. vm_compute. intuition discriminate.
Qed.

Print Assumptions C70_comma.
Print Assumptions C70_order.
Print Assumptions C70_once.
Print Assumptions C70_effective_partial.
Print Assumptions C70_align.
Print Assumptions C70_align_not.
Print Assumptions C70_comment_refuted.
