(** Answers do not depend on the bound on the depth of calls, nor on [strict] once there is
    one: rules and proofs. *)
From Verif Require Import Base TokenModel LexModel UtilModel DocModel ExprModel BuildModel ExprDocModel SynModel DeclModel.
Local Close Scope Q_scope.
Local Open Scope nat_scope.

(** [below m m']: what [m] answers is what [m'] answers. *)
Definition below {X} (m m' : P X) : Prop := forall s, match m s with Ok a s' => m' s = Ok a s' | _ => True end.
Lemma below_refl : forall X (m : P X), below m m.
Proof. intros X m s. destruct (m s); exact Logic.I || reflexivity. Qed.
Lemma below_fuel : forall X (m : P X), below out_of_fuel m.
Proof. intros X m s. exact Logic.I. Qed.
Lemma below_bnd : forall X Z (m m' : P X) (f f' : X -> P Z), below m m' -> (forall a, below (f a) (f' a)) -> below (pbnd m f) (pbnd m' f').
Proof.
  intros X Z m m' f f' H1 H2 s. unfold pbnd. specialize (H1 s). destruct (m s) as [a s'| |]; [|exact Logic.I..]. rewrite H1. apply H2.
Qed.
Lemma below_attempt : forall X (g : X -> bool) (m m' : P X), below m m' -> below (attempt g m) (attempt g m').
Proof. intros X g m m' H s. unfold attempt. specialize (H s). destruct (m s) as [a s'| |]; [|exact Logic.I..]. rewrite H. destruct (g a); reflexivity. Qed.
Create HintDb bel.
Ltac be := match goal with
  | |- below ?a ?a => apply below_refl
  | |- below out_of_fuel _ => apply below_fuel
  | |- below (pbnd _ _) (pbnd _ _) => apply below_bnd; [|intros ?]
  | |- below (attempt _ _) (attempt _ _) => apply below_attempt
  | |- below (if ?c then _ else _) _ => destruct c eqn:?
  | |- below (match ?x with _ => _ end) _ => destruct x eqn:?
  | |- below _ _ => solve [auto with bel arith]
  end.
Ltac bes := cbv beta; repeat be.

Section Statements.
Variable q : queries.
Variable D : docs.
Variable labelled : token -> doc.
Variable iw cw : nat.
Variable openbsd : bool.
Variable S_ : setting.
Variable width : bs -> point -> nat.
Variable tpeek : bool -> list token -> list token -> option nat.
Variable braces : list token -> list token -> option nat * bool.
Variable decl_type : list token -> list token -> bool.
Variable expr_peek : list token -> list token -> option nat.
Variable loop_stmt : list token -> list token -> bool.
Variable other other' : what -> point -> P ret_.
Hypothesis others : forall w p, below (other w p) (other' w p).
Section Stmt.
Variable st st' : point -> P ret_.
Hypothesis sts : forall p, below (st p) (st' p).
Hint Resolve others sts : bel.
Set Default Proof Using "All".
Lemma stmts_below : forall f sw n i pv any, below (stmts f st sw n i pv any) (stmts f st' sw n i pv any).
Proof. induction f as [|f IH]; intros; cbn [stmts]; bes. Qed.
Hint Resolve stmts_below : bel.
Lemma block_below : forall f sw gnu h t, below (block D iw f st sw gnu h t) (block D iw f st' sw gnu h t).
Proof. intros. unfold block. bes. Qed.
Hint Resolve block_below : bel.
Lemma kw_expr_below : forall f t e d p, below (kw_expr q D iw cw openbsd S_ width tpeek braces f st t e d p) (kw_expr q D iw cw openbsd S_ width tpeek braces f st' t e d p).
Proof. intros. unfold kw_expr. bes. Qed.
Hint Resolve kw_expr_below : bel.
Lemma elses_below : forall f h p, below (elses q D iw cw openbsd S_ width tpeek braces f st h p) (elses q D iw cw openbsd S_ width tpeek braces f st' h p).
Proof. induction f as [|f IH]; intros; cbn [elses]; bes. Qed.
Hint Resolve elses_below : bel.
Lemma case_stmts_below : forall f k i, below (case_stmts f st k i) (case_stmts f st' k i).
Proof. induction f as [|f IH]; intros; cbn [case_stmts]; bes. Qed.
Hint Resolve case_stmts_below : bel.
Lemma first_good_below : forall l l', Forall2 below l l' -> below (first_good l) (first_good l').
Proof. induction 1 as [|m m' l l' H _ IH]; cbn [first_good]; bes; assumption. Qed.
Lemma stmt1_below : forall f p, below (stmt1 q D labelled iw cw openbsd S_ width tpeek braces decl_type expr_peek loop_stmt other f st p) (stmt1 q D labelled iw cw openbsd S_ width tpeek braces decl_type expr_peek loop_stmt other' f st' p).
Proof.
  intros. unfold stmt1. apply first_good_below. repeat apply Forall2_cons; try apply Forall2_nil; try apply below_refl; unfold stmt_if, stmt_case, stmt_for, stmt_kw, stmt_label, stmt_dowhile, stmt_cpp; bes.
Qed.
End Stmt.
Lemma stmt_below : forall f p, below (stmt q D labelled iw cw openbsd S_ width tpeek braces decl_type expr_peek loop_stmt other f p) (stmt q D labelled iw cw openbsd S_ width tpeek braces decl_type expr_peek loop_stmt other' f p).
Proof. induction f as [|f IH]; intros; cbn [stmt]; [apply below_fuel|]. apply stmt1_below, IH. Qed.
Lemma parser_block_below : forall p, below (parser_block q D labelled iw cw openbsd S_ width tpeek braces decl_type expr_peek loop_stmt other p) (parser_block q D labelled iw cw openbsd S_ width tpeek braces decl_type expr_peek loop_stmt other' p).
Proof. intros p s. unfold parser_block. apply block_below, stmt_below. Qed.
End Statements.

Section Decl.
Variable q : queries.
Variable D : docs.
Variable iw cw : nat.
Variable S_ : setting.
Variable width : bs -> point -> nat.
Variable tpeek : bool -> list token -> list token -> option nat.
Variable braces : list token -> list token -> option nat * bool.
Variable O : asks.
Variable Y : layout.
Variable hard strict : bool.
Hypothesis weaker : hard = false -> strict = false.
Set Default Proof Using "All".
Ltac ind L := intros; first [apply below_fuel|lia|apply le_S_n in L].
Lemma attrs_below : forall f f', f <= f' -> forall l e n h p o, below (attrs q D cw S_ tpeek braces f l e n h p o) (attrs q D cw S_ tpeek braces f' l e n h p o).
Proof. induction f as [|f IH]; intros [|f'] L; ind L. cbn [attrs]. bes. Qed.
Hint Resolve attrs_below : bel.
Lemma attributes_below : forall f f', f <= f' -> forall a b p, below (attributes q D cw S_ tpeek braces f a b p) (attributes q D cw S_ tpeek braces f' a b p).
Proof. intros. unfold attributes. bes. Qed.
Hint Resolve attributes_below : bel.
Lemma asm_operands_below : forall f f', f <= f' -> forall p n, below (asm_operands q D S_ tpeek braces f p n) (asm_operands q D S_ tpeek braces f' p n).
Proof. induction f as [|f IH]; intros [|f'] L; ind L. cbn [asm_operands]. bes. Qed.
Hint Resolve asm_operands_below : bel.
Lemma asm_qualifiers_below : forall f f', f <= f' -> forall p n, below (asm_qualifiers D f p n) (asm_qualifiers D f' p n).
Proof. induction f as [|f IH]; intros [|f'] L; ind L. cbn [asm_qualifiers]. bes. Qed.
Hint Resolve asm_qualifiers_below : bel.
Lemma asm_part_below : forall f f', f <= f' -> forall l o c, below (asm_part q D S_ tpeek braces f l o c) (asm_part q D S_ tpeek braces f' l o c).
Proof. intros. unfold asm_part. bes. Qed.
Hint Resolve asm_part_below : bel.
Lemma asm_below : forall f f', f <= f' -> forall p, below (asm q D cw S_ tpeek braces O f p) (asm q D cw S_ tpeek braces O f' p).
Proof. intros. unfold asm. bes. Qed.
Hint Resolve asm_below : bel.
Lemma stmt_asm_below : forall f f', f <= f' -> forall p, below (stmt_asm q D cw S_ tpeek braces O f p) (stmt_asm q D cw S_ tpeek braces O f' p).
Proof. intros. unfold stmt_asm. bes. Qed.
Hint Resolve stmt_asm_below : bel.
Lemma root_asm_below : forall f f', f <= f' -> forall p, below (root_asm q D cw S_ tpeek braces O f p) (root_asm q D cw S_ tpeek braces O f' p).
Proof. intros. unfold root_asm. bes. Qed.
Hint Resolve root_asm_below : bel.
Lemma arg_tokens_below : forall f f', f <= f' -> forall r v p, below (arg_tokens q D cw S_ tpeek braces f r v p) (arg_tokens q D cw S_ tpeek braces f' r v p).
Proof. induction f as [|f IH]; intros [|f'] L; ind L. cbn [arg_tokens]. bes. Qed.
Hint Resolve arg_tokens_below : bel.
Lemma func_arg_below : forall f f' rec rec', f <= f' -> (forall t p, below (rec t p) (rec' t p)) -> forall r p, below (func_arg q D cw S_ tpeek braces O f rec r p) (func_arg q D cw S_ tpeek braces O f' rec' r p).
Proof. intros. unfold func_arg. bes. Qed.
Hint Resolve func_arg_below : bel.
Lemma func_args_below : forall f f', f <= f' -> forall rec rec', (forall t p, below (rec t p) (rec' t p)) -> forall r p o, below (func_args q D cw S_ tpeek braces O f rec r p o) (func_args q D cw S_ tpeek braces O f' rec' r p o).
Proof. induction f as [|f IH]; intros [|f'] L; ind L. cbn [func_args]. bes. Qed.
Hint Resolve func_args_below : bel.
Lemma type_tokens_below : forall f f', f <= f' -> forall a a', (forall n p, below (a n p) (a' n p)) -> forall t l p, below (type_tokens q D cw S_ width tpeek braces f a t l p) (type_tokens q D cw S_ width tpeek braces f' a' t l p).
Proof. induction f as [|f IH]; intros [|f'] L; ind L. cbn [type_tokens]. bes. Qed.
Hint Resolve type_tokens_below : bel.
Lemma ptype_below : forall f f', f <= f' -> forall r t p, below (ptype q D cw S_ width tpeek braces O f r t p) (ptype q D cw S_ width tpeek braces O f' r t p).
Proof. induction f as [|f IH]; intros [|f'] L; ind L. cbn [ptype]. bes. apply type_tokens_below; [exact L|]. intros. bes. Qed.
Hint Resolve ptype_below : bel.
Lemma fields_below : forall f f', f <= f' -> forall e p n, below (fields q D S_ tpeek braces f e p n) (fields q D S_ tpeek braces f' e p n).
Proof. induction f as [|f IH]; intros [|f'] L; ind L. cbn [fields]. bes. Qed.
Hint Resolve fields_below : bel.
Lemma elem_below : forall f f' rec rec', f <= f' -> (forall p, below (rec p) (rec' p)) -> forall e n i c p, below (elem q D S_ tpeek braces f rec e n i c p) (elem q D S_ tpeek braces f' rec' e n i c p).
Proof. intros. unfold elem, field. bes. Qed.
Hint Resolve elem_below : bel.
Lemma items_below : forall f f', f <= f' -> forall rec rec', (forall p, below (rec p) (rec' p)) -> forall a b c d e g h, below (items q D S_ tpeek braces O f rec a b c d e g h) (items q D S_ tpeek braces O f' rec' a b c d e g h).
Proof. induction f as [|f IH]; intros [|f'] L; ind L. cbn [items]. bes. Qed.
Hint Resolve items_below : bel.
Lemma pbraces_below : forall f f', f <= f' -> forall a b c d, below (pbraces q D S_ width tpeek braces O f a b c d) (pbraces q D S_ width tpeek braces O f' a b c d).
Proof. induction f as [|f IH]; intros [|f'] L; ind L. cbn [pbraces]. bes. Qed.
Hint Resolve pbraces_below : bel.
Lemma storages_below : forall f f', f <= f' -> forall p, below (storages D f p) (storages D f' p).
Proof. induction f as [|f IH]; intros [|f'] L; ind L. cbn [storages]. bes. Qed.
Hint Resolve storages_below : bel.
Lemma cpp_x_below : forall f f', f <= f' -> forall p, below (cpp_x q D S_ tpeek braces O f p) (cpp_x q D S_ tpeek braces O f' p).
Proof. intros. unfold cpp_x. bes. Qed.
Hint Resolve cpp_x_below : bel.
Lemma init1_below : forall f f', f <= f' -> forall o p, below (init1 q D cw S_ tpeek braces O Y f o p) (init1 q D cw S_ tpeek braces O Y f' o p).
Proof. intros. unfold init1. bes. Qed.
Hint Resolve init1_below : bel.
Lemma init_assign_below : forall f f', f <= f' -> forall a b c o p, below (init_assign q D iw cw S_ width tpeek braces O f a b c o p) (init_assign q D iw cw S_ width tpeek braces O f' a b c o p).
Proof. intros. unfold init_assign. bes. Qed.
Hint Resolve init_assign_below : bel.
Lemma inits_below : forall f f', f <= f' -> forall a b c d e o n, below (inits q D iw cw S_ width tpeek braces O Y f a b c d e o n) (inits q D iw cw S_ width tpeek braces O Y f' a b c d e o n).
Proof. induction f as [|f IH]; intros [|f'] L; ind L. cbn [inits]. bes. Qed.
Hint Resolve inits_below : bel.
(** From here on strict or not. *)
Lemma emit_at_below : forall k h, below (emit_at D hard k h) (emit_at D strict k h).
Proof. intros k h s. unfold emit_at. destruct (eq_sig _ _); [|destruct hard; [exact Logic.I|rewrite weaker by reflexivity; destruct (put _ _ _); reflexivity || exact Logic.I]]. destruct (emit D k (fst h) s); reflexivity || exact Logic.I. Qed.
Hint Resolve emit_at_below : bel.
Lemma decl_init_below : forall f f', f <= f' -> forall a b p, below (decl_init q D iw cw S_ width tpeek braces O Y hard f a b p) (decl_init q D iw cw S_ width tpeek braces O Y strict f' a b p).
Proof.
  intros f f' L a b p s. unfold decl_init. cbv beta.
  match goal with |- match ?m s with _ => _ end => match goal with |- context [?m' s = Ok _ _] => cut (below m m'); [intros X; apply X|] end end.
  bes. intros s'. destruct (hard && _) eqn:E; [exact Logic.I|]. replace (strict && _) with false by (destruct hard; [cbn [andb] in E; rewrite E; symmetry; apply andb_false_r|rewrite weaker by reflexivity; reflexivity]). apply (below_refl _ (let! r := good_ in pret (r, snd a2))).
Qed.
Hint Resolve decl_init_below : bel.
Section Dec.
Variable dec dec' : point -> P ret_.
Hypothesis decs : forall p, below (dec p) (dec' p).
Hint Resolve decs : bel.
Lemma decl_braces_below : forall w p, below (decl_braces D iw dec w p) (decl_braces D iw dec' w p).
Proof. intros. unfold decl_braces. bes. Qed.
Hint Resolve decl_braces_below : bel.
Lemma proto_ptr_below : forall f f', f <= f' -> forall p, below (proto_ptr q D cw S_ width tpeek braces O f p) (proto_ptr q D cw S_ width tpeek braces O f' p).
Proof. intros. unfold proto_ptr. bes. Qed.
Hint Resolve proto_ptr_below : bel.
Lemma proto_args_below : forall f f', f <= f' -> forall d p, below (proto_args q D cw S_ width tpeek braces O hard f d p) (proto_args q D cw S_ width tpeek braces O strict f' d p).
Proof. intros. unfold proto_args. bes. Qed.
Hint Resolve proto_args_below : bel.
Lemma func_proto_below : forall f f', f <= f' -> forall a b c d e, below (func_proto q D iw cw S_ width tpeek braces O Y hard f dec a b c d e) (func_proto q D iw cw S_ width tpeek braces O Y strict f' dec' a b c d e).
Proof. intros. unfold func_proto. bes. Qed.
Hint Resolve func_proto_below : bel.
Lemma func_decl_below : forall f f', f <= f' -> forall p, below (func_decl q D iw cw S_ width tpeek braces O Y hard f dec p) (func_decl q D iw cw S_ width tpeek braces O Y strict f' dec' p).
Proof. intros. unfold func_decl. bes. Qed.
Hint Resolve func_decl_below : bel.
Lemma decl_end_below : forall fl p o, below (decl_end D hard fl p o) (decl_end D strict fl p o).
Proof. intros. unfold decl_end. bes. Qed.
Hint Resolve decl_end_below : bel.
Lemma decl_type_below : forall f f', f <= f' -> forall a b c p, below (decl_type q D iw cw S_ width tpeek braces O Y hard f dec a b c p) (decl_type q D iw cw S_ width tpeek braces O Y strict f' dec' a b c p).
Proof. intros. unfold decl_type. bes. Qed.
Hint Resolve decl_type_below : bel.
Lemma decl2_below : forall f f', f <= f' -> forall a p, below (decl2 q D iw cw S_ width tpeek braces O Y hard f dec a p) (decl2 q D iw cw S_ width tpeek braces O Y strict f' dec' a p).
Proof. intros. unfold decl2. bes. Qed.
End Dec.
Lemma decls_below : forall f f', f <= f' -> forall d d', (forall p, below (d p) (d' p)) -> forall a p b, below (decls O f d a p b) (decls O f' d' a p b).
Proof. induction f as [|f IH]; intros [|f'] L; ind L. cbn [decls]. bes. Qed.
Lemma decl_below : forall f f', f <= f' -> forall a p, below (decl q D iw cw S_ width tpeek braces O Y hard f a p) (decl q D iw cw S_ width tpeek braces O Y strict f' a p).
Proof. induction f as [|f IH]; intros [|f'] L; ind L. cbn [decl]. bes. apply decls_below; [exact L|]. intros. apply decl2_below; [|exact L]. intros. apply IH, L. Qed.
Hint Resolve decl_below func_proto_below : bel.
Variable labelled : token -> doc.
Variable openbsd : bool.
Variable expr_peek : list token -> list token -> option nat.
Variable loop_stmt : list token -> list token -> bool.
Lemma body_below : forall f f', f <= f' -> forall p, below (body q D iw cw S_ width tpeek braces O Y hard labelled openbsd expr_peek loop_stmt f p) (body q D iw cw S_ width tpeek braces O Y strict labelled openbsd expr_peek loop_stmt f' p).
Proof. intros. unfold body. apply parser_block_below. intros [t|] p'; cbn [within]; bes. Qed.
Hint Resolve body_below : bel.
Lemma func_impl_below : forall f f', f <= f' -> forall p, below (func_impl q D iw cw S_ width tpeek braces O Y hard labelled openbsd expr_peek loop_stmt f p) (func_impl q D iw cw S_ width tpeek braces O Y strict labelled openbsd expr_peek loop_stmt f' p).
Proof. intros. unfold func_impl. bes. Qed.
Hint Resolve func_impl_below : bel.
Lemma roots_below : forall f f', f <= f' -> forall d d', (forall p, below (d p) (d' p)) -> forall n p, below (roots f d n p) (roots f' d' n p).
Proof. induction f as [|f IH]; intros [|f'] L; ind L. cbn [roots]. bes. Qed.
Hint Resolve roots_below : bel.
Lemma extern_below : forall f f', f <= f' -> forall d d', (forall p, below (d p) (d' p)) -> forall p, below (extern D f d p) (extern D f' d' p).
Proof. intros. unfold extern. bes. Qed.
Hint Resolve extern_below : bel.
Lemma root_below : forall f f', f <= f' -> forall p, below (root_ q D iw cw S_ width tpeek braces O Y hard labelled openbsd expr_peek loop_stmt f p) (root_ q D iw cw S_ width tpeek braces O Y strict labelled openbsd expr_peek loop_stmt f' p).
Proof. induction f as [|f IH]; intros [|f'] L; ind L. cbn [root_]. unfold or_none. bes. Qed.
Hint Resolve root_below : bel.
Lemma exec_below : forall f f', f <= f' -> forall p, below (exec q D iw cw S_ width tpeek braces O Y hard labelled openbsd expr_peek loop_stmt f p) (exec q D iw cw S_ width tpeek braces O Y strict labelled openbsd expr_peek loop_stmt f' p).
Proof. induction f as [|f IH]; intros [|f'] L; ind L. cbn [exec]. bes. Qed.
End Decl.
