(** Model of expr.c:311-349 and 694-1301: the document of an expression.  Tokens are asked
    about their surroundings (spaces, lines and comments next to them) through [toks], in
    whatever state they are then; the trimming and moving of spaces and comments done on the
    way (token_trim, token_move_next_line, token_move_prev_line) is part of what [tok] gives
    for a token.  The HARDLINE behind an operator is added here before the group for the
    operand is and not after; the group is still empty then.  Left out: the width of columns (ruler), EXPR_EXEC_TEST. *)
From Verif Require Import Base TokenModel LexModel DocModel ExprModel BuildModel.
Local Close Scope Q_scope.
Local Open Scope nat_scope.

(** What is asked about tokens. *)
Record queries : Type := Queries {
  q_line : token -> bool;       (** token_has_line(tk, 1) *)
  q_spaces : token -> bool;     (** token_has_spaces() of the token or the one before *)
  q_comment : token -> bool;    (** token_has_suffix(tk, TOKEN_COMMENT) *)
  q_fold : token -> bool;       (** no C99 comment before the token *)
  q_comma : token -> bool;      (** the next token is a comma *)
  q_prev_line : token -> bool   (** there is a token before without a line behind it *)
}.
(** What documents tokens have: parser.c:323-363 parser_doc_token for a token; the documents
    made by expr_recover() and expr_recover_cast() along with the highest weight of their
    SOFTLINEs; the DOC_ALIGN made by ruler_insert(). *)
Record docs : Type := Docs { tok : token -> doc; rec : list token -> doc; rec_max : list token -> nat; aligned : token -> nat * nat * bool }.
(** Style options, what the caller asks for (struct expr_exec_arg) and simple passes. *)
Record setting : Type := Setting {
  s_align_operands : bool;      (** AlignOperands: Align *)
  s_break_binary : bool;        (** BreakBeforeBinaryOperators: NonAssignment or All *)
  s_align_bracket : bool;       (** AlignAfterOpenBracket: Align *)
  s_break_ternary : bool;       (** BreakBeforeTernaryOperators: true *)
  a_nosoft : bool; a_ruler : bool; a_line : bool; a_softline : bool; a_hardline : bool;
  a_align : nat; a_indent : nat;
  s_parens : bool;              (** simple_enter(SIMPLE_EXPR_PARENS) *)
  s_sizeof : bool               (** simple_enter(SIMPLE_EXPR_SIZEOF) *)
}.

(** ex_tk *)
Definition ex_tk (x : expr) : list token :=
  match x with
  | ENull => []
  | EUnary k _ | EBinary _ k _ | EArg _ k _ | ETernary _ k _ _ _ | EPrefix k _ | EPostfix _ k | EParens k _ _ | ESquares _ k _ _ | EField _ k _
  | ECall _ k _ _ | ECast k _ _ _ | ESizeof k _ _ _ | ELiteral k => [k]
  | EConcat _ ks | ERecover ks => firstn 1 ks
  end.

Section Doc.
Variable q : queries.
Variable D : docs.
Variable S_ : setting.

(** es_depth, es_nassign, es_ncalls and es_noparens; each change is undone. *)
Record counts : Type := Counts { c_depth : nat; c_nassign : nat; c_ncalls : nat; c_noparens : nat }.

Definition token_ (k : token) (p : point) : M unit := leaf (tok D k) p.
(** A closing token that may be missing. *)
Definition tokens (ks : list token) (p : point) : M unit := match ks with k :: _ => token_ k p | [] => ret tt end.
(** expr.c:1175-1208 expr_doc_align, expr_doc_align_disable *)
Definition align (indent : nat) (p : point) : M point := minimize [(INDENT_WIDTH, false); (Z.of_nat indent, false)] p.
Definition align_disable (indent : nat) (p : point) : M point := minimize [(0%Z, false); (Z.of_nat indent, true)] p.
(** expr.c:1210-1216 expr_doc_indent_parens *)
Definition indent_parens (es : counts) (p : point) : M point := if 0 <? c_noparens es then ret p else alloc [KIndent INDENT_PARENS] p.
(** expr.c:1218-1236 expr_doc_has_spaces *)
Definition has_spaces (k : token) : bool := negb (flag F_SPACE k) || q_spaces q k.
(** expr.c:273-291 soft_weights *)
Definition SOFT_MAX : nat := 3.
Definition W_ARG : nat := SOFT_MAX.
Definition W_BINARY : nat := SOFT_MAX - 1.
Definition W_CALL : nat := SOFT_MAX - 1.
Definition W_CALL_ARGS : nat := SOFT_MAX - 1.
Definition W_TERNARY : nat := SOFT_MAX - 1.
(** expr.c:1259-1283 expr_doc_soft; [f] is expr_doc() of the expression. *)
Definition soft (f : point -> M point) (weight : nat) (p : point) : M point :=
  if a_nosoft S_ then f p
  else
    let* dc := alloc [KGroup] p in
    leaf_weight Softline weight dc;;
    let* parent := alloc [] dc in
    let* concat := f parent in
    let* m := max_weight parent in
    (if (weight <? SOFT_MAX) && (weight <=? m) then remove_soft dc else ret tt);;
    ret concat.

(** expr.c expr_doc_concat, the operands after the first. *)
Fixpoint concat_rest (ks : list token) (dc tmp : point) {struct ks} : M unit :=
  match ks with
  | [] => ret tt
  | k :: ks => leaf DocModel.Line tmp;; let* tmp := alloc [KGroup] dc in token_ k tmp;; concat_rest ks dc tmp
  end.

(** expr.c:694-799 expr_doc and, in the order of the file, expr.c:801-808 expr_doc_unary,
    811-895 expr_doc_binary, 897-925 expr_doc_parens, 927-936 expr_doc_field, 938-999
    expr_doc_call, 1001-1024 expr_doc_arg, 1026-1049 expr_doc_sizeof, 1051-1075 expr_doc_concat,
    1077-1139 expr_doc_ternary and 1141-1154 expr_doc_recover.  A missing operand where one is
    needed is a NULL pointer dereferenced: [fail]. *)
Fixpoint expr_doc (x : expr) (es0 : counts) (p0 : point) {struct x} : M point :=
  let es := Counts (S (c_depth es0)) (c_nassign es0) (c_ncalls es0) (c_noparens es0) in
  let maybe (x : expr) (es : counts) (p : point) : M point := if isnull x then ret p else expr_doc x es p in
  match x with
  | ENull => fail
  | EUnary tk x =>
      let* dc := alloc [KGroup] p0 in
      token_ tk dc;;
      maybe x es dc
  | EBinary l tk r =>
      let* dc := alloc [KGroup] p0 in
      let doalign := s_align_operands S_ in
      if flag F_ASSIGN tk then
        let es := Counts (c_depth es) (S (c_nassign es)) (c_ncalls es) (c_noparens es) in
        let* lhs := expr_doc l es dc in
        literal " " lhs;;
        token_ tk lhs;;
        literal " " lhs;;
        if isnull r then ret dc
        else
          let* dc := (if doalign then (if q_line q tk then align_disable 0 dc else align 0 dc) else ret dc) in
          if 1 <? c_nassign es then soft (expr_doc r es) W_BINARY dc else expr_doc r es dc
      else if s_break_binary S_ then
        let* dc := (if doalign then align 0 dc else ret dc) in
        let* lhs := expr_doc l es dc in
        let dospace := has_spaces tk in
        (if dospace then leaf DocModel.Line lhs else ret tt);;
        let* dc := alloc [KGroup] dc in
        leaf Softline dc;;
        token_ tk dc;;
        (if dospace then literal " " dc else ret tt);;
        maybe r es dc
      else
        let* dc := (if doalign then align 0 dc else ret dc) in
        let* lhs := expr_doc l es dc in
        let dospace := has_spaces tk in
        (if dospace then literal " " lhs else ret tt);;
        token_ tk lhs;;
        let hard := q_comment q tk && q_line q tk in
        (if hard then leaf Hardline lhs else ret tt);;
        let* dc := alloc [KGroup] dc in
        (if negb hard && dospace then leaf DocModel.Line dc else ret tt);;
        if isnull r then ret dc else soft (expr_doc r es) W_BINARY dc
  | EArg l tk r =>
      let* dc := alloc [KGroup] p0 in
      let* lhs := (if isnull l then ret dc else expr_doc l es dc) in
      token_ tk lhs;;
      (if a_ruler S_ then leaf (let '(i, s, t) := aligned D tk in DocModel.Align i s t) lhs
       else if q_comma q tk then ret tt else leaf DocModel.Line lhs);;
      if isnull r then ret dc else soft (expr_doc r es) W_ARG dc
  | ETernary c qm t colon f =>
      let* dc := alloc [KGroup] p0 in
      if s_break_ternary S_ then
        let* cond := expr_doc c es dc in
        leaf DocModel.Line cond;;
        let* dc := (if s_align_operands S_ then align 0 dc else ret dc) in
        let* lhs := alloc [KGroup] dc in
        leaf Softline lhs;;
        token_ qm lhs;;
        (if isnull t then ret tt
         else literal " " lhs;; let* lhs := soft (expr_doc t es) W_TERNARY lhs in leaf DocModel.Line lhs);;
        let* rhs := alloc [KGroup] dc in
        leaf Softline rhs;;
        tokens colon rhs;;
        literal " " rhs;;
        expr_doc f es rhs
      else
        let* ternary := expr_doc c es dc in
        leaf DocModel.Line ternary;;
        token_ qm ternary;;
        let* ternary := (if isnull t then ret dc
          else leaf DocModel.Line ternary;; let* ternary := soft (expr_doc t es) W_TERNARY dc in leaf DocModel.Line ternary;; ret ternary) in
        tokens colon ternary;;
        leaf DocModel.Line ternary;;
        soft (expr_doc f es) W_TERNARY dc
  | EPrefix tk x =>
      let* dc := alloc [KGroup] p0 in
      token_ tk dc;;
      maybe x es dc;;
      ret dc
  | EPostfix x tk =>
      let* dc := alloc [KGroup] p0 in
      maybe x es dc;;
      token_ tk dc;;
      ret dc
  | EParens lp x rp =>
      let* dc := alloc [KGroup] p0 in
      if (c_depth es =? 1) && s_parens S_ then maybe x es dc
      else
        token_ lp dc;;
        let* dc := (if s_align_bracket S_ then alloc [KIndent INDENT_WIDTH] dc else indent_parens es dc) in
        let* dc := maybe x es dc in
        tokens rp dc;;
        ret dc
  | ESquares l lb x rb =>
      let* dc := alloc [KGroup] p0 in
      let* dc := maybe l es dc in
      token_ lb dc;;
      let* dc := maybe x es dc in
      tokens rb dc;;
      ret dc
  | EField l tk r =>
      let* dc := alloc [KGroup] p0 in
      let* dc := expr_doc l es dc in
      token_ tk dc;;
      maybe r es dc
  | ECall l lp x rp =>
      let* dc := alloc [KGroup] p0 in
      let es := Counts (c_depth es) (c_nassign es) (S (c_ncalls es)) (c_noparens es) in
      let es' := Counts (c_depth es) (c_nassign es) (c_ncalls es) (S (c_noparens es)) in
      let* dc := (if 1 <? c_ncalls es then soft (expr_doc l es') W_CALL dc else expr_doc l es' dc) in
      token_ lp dc;;
      let fold_rparens := negb (isnull x) && match rp with k :: _ => q_fold q k | [] => false end in
      let* dc := (if isnull x then ret dc
        else
          let* dc := (if s_align_bracket S_ then
              let indent := if (c_ncalls es =? 1) && (a_align S_ =? 0) && negb (a_hardline S_) then 0 else a_indent S_ in
              if q_line q lp then align_disable indent dc else align indent dc
            else ret dc) in
          soft (expr_doc x es) W_CALL_ARGS dc) in
      match rp with
      | [] => ret dc
      | k :: _ =>
          (if fold_rparens then token_ k dc
           else let* dedent := alloc [KIndent (- Z.of_nat (a_indent S_))] dc in token_ k dedent);;
          ret dc
      end
  | ECast lp t rp x =>
      let* dc := alloc [KGroup] p0 in
      token_ lp dc;;
      maybe t es dc;;
      tokens rp dc;;
      maybe x es dc;;
      ret dc
  | ESizeof tk lp x rp =>
      let* dc := alloc [KGroup] p0 in
      token_ tk dc;;
      match lp with k :: _ => token_ k dc | [] => literal (if s_sizeof S_ then "(" else " ") dc end;;
      let* dc := maybe x es dc in
      match rp with k :: _ => token_ k dc | [] => if s_sizeof S_ then literal ")" dc else ret tt end;;
      ret dc
  | EConcat x ks =>
      let* dc := alloc [KGroup] p0 in
      let* dc := (if s_align_operands S_ && (c_ncalls es =? 0) && existsb (q_prev_line q) (ex_tk x) then align 0 dc else ret dc) in
      let* dc := expr_doc x es dc in
      concat_rest ks dc dc;;
      ret dc
  | ELiteral tk =>
      let* dc := alloc [KGroup] p0 in
      token_ tk dc;;
      ret dc
  | ERecover ks =>
      let* dc := alloc [KGroup] p0 in
      let* dc := (if match ks with k :: _ => is T_LBRACE k | [] => false end then align_disable 0 dc else ret dc) in
      leaf_weight (rec D ks) (rec_max D ks) dc;;
      ret dc
  end.

(** expr.c:324-358, expr_exec once the tree is built.  The OPTIONAL after a HARDLINE holds
    the group directly; here a CONCAT is in between. *)
Definition expr_doc_exec (x : expr) (p : point) : M point :=
  let ks := [KMaxlines 1; KScope; KGroup; KOptional] in
  let* indent := alloc (ks ++ (if 0 <? a_align S_ then [KIndent (Z.of_nat (a_align S_))]
                               else if 0 <? a_indent S_ then [KIndent (Z.of_nat (a_indent S_))] else [])) p in
  (if a_line S_ then leaf DocModel.Line indent else ret tt);;
  (if a_softline S_ then leaf Softline indent else ret tt);;
  let* indent := (if a_hardline S_ then leaf Hardline indent;; alloc [KOptional] indent else ret indent) in
  expr_doc x (Counts 0 0 0 0) indent.
End Doc.
