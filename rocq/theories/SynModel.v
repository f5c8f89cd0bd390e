(** Model of parser-stmt.c, parser-stmt-expr.c and parser.c:365-394: how statements are read
    and which documents are built for them.  Left out: preprocessor branches (BRCH), the
    simple passes (-s), what is remembered while looking ahead.  The trimming and moving of
    spaces and comments done on the way (token_trim, token_move_suffixes) is part of what
    [tok] gives for a token. *)
From Verif Require Import Base TokenModel LexModel DocModel ExprModel BuildModel ExprDocModel.
Local Close Scope Q_scope.
Local Open Scope nat_scope.

(** The tokens to be read (struct lexer) and the document under construction. *)
Record ps : Type := Ps { lx : st; bd : bs }.
(** [Bad]: assertion failed or a document used that is not to be added to anymore; [Fuel]:
    the bound on the recursion is exceeded. *)
Inductive out (A : Type) : Type := Ok (a : A) (s : ps) | Bad | Fuel.
Arguments Ok {A} a s. Arguments Bad {A}. Arguments Fuel {A}.
Definition P (A : Type) : Type := ps -> out A.
Definition pret {A} (a : A) : P A := fun s => Ok a s.
Definition pbnd {A B} (m : P A) (f : A -> P B) : P B := fun s => match m s with Ok a s => f a s | Bad => Bad | Fuel => Fuel end.
Definition out_of_fuel {A} : P A := fun _ => Fuel.
Notation "'let!' x ':=' m 'in' k" := (pbnd m (fun x => k)) (at level 200, x name, m at level 100, k at level 200, right associativity).
Notation "m ;! k" := (pbnd m (fun _ => k)) (at level 190, right associativity).

(** GOOD, NONE and FAIL; parser.c:225-244, 291-305 parser_fail, parser_good, parser_none *)
Inductive ret_ : Set := GOOD | NONE | FAIL.
Definition is_good (r : ret_) : bool := match r with GOOD => true | _ => false end.
Definition is_fail (r : ret_) : bool := match r with FAIL => true | _ => false end.
Definition good_ : P ret_ := fun s => Ok (if e_err (lx s) then FAIL else GOOD) s.
Definition none_ : P ret_ := fun s => Ok (if e_err (lx s) then FAIL else NONE) s.
Definition fail_ : P ret_ := fun s => Ok FAIL (Ps (St (e_done (lx s)) (e_toks (lx s)) true) (bd s)).

(** lexer.c: lexer_peek_if, lexer_if, lexer_expect; the tokens that remain. *)
Definition toks : P (list token) := fun s => Ok (e_toks (lx s)) s.
Definition set_toks (l : list token) : P unit := fun s => Ok tt (Ps (St (e_done (lx s)) l (e_err (lx s))) (bd s)).
Definition lif (t : ttype) : P (option token) :=
  fun s => match e_toks (lx s) with
           | k :: _ => if is t k then Ok (Some k) (Ps (take 1 (lx s)) (bd s)) else Ok None s
           | [] => Ok None s
           end.
Definition lexpect (t : ttype) : P (option token) :=
  let! k := lif t in
  match k with
  | Some k => pret (Some k)
  | None => fun s => Ok None (Ps (St (e_done (lx s)) (e_toks (lx s)) true) (bd s))
  end.
Definition bld {A} (m : M A) : P A := fun s => match m (bd s) with Some (a, b) => Ok a (Ps (lx s) b) | None => Bad end.
(** token.c:189-198 token_cmp *)
Definition lno (k : token) : nat := t_lno (k_tok k).

(** parser_decl(), with or without PARSER_DECL_TRIM_SEMI, and parser_stmt_asm(): see
    DeclModel. *)
Inductive what : Set := WDecl (trim : bool) | WAsm.

Section Stmt.
Variable q : queries.
Variable D : docs.
(** The document of a label: parser_doc_token() and, behind the prefixes of the token, a
    space if it is indented. *)
Variable labelled : token -> doc.
(** Style options: IndentWidth, ContinuationIndentWidth, BasedOnStyle: OpenBSD; the ones
    used for expressions. *)
Variable iw cw : nat.
Variable openbsd : bool.
Variable S_ : setting.
(** parser_width() *)
Variable width : bs -> point -> nat.
(** See ExprModel. *)
Variable tpeek : bool -> list token -> list token -> option nat.
Variable braces : list token -> list token -> option nat * bool.
(** parser-type.c:parser_type_peek without flags; parser-expr.c:parser_expr_peek: how many
    tokens make up the expression; parser-stmt-expr.c:13-30 is_loop_stmt. *)
Variable decl_type : list token -> list token -> bool.
Variable expr_peek : list token -> list token -> option nat.
Variable loop_stmt : list token -> list token -> bool.
Variable other : what -> point -> P ret_.

Definition emit (k : token) (p : point) : P unit := bld (leaf (tok D k) p).
Definition space (p : point) : P unit := bld (literal " " p).
Definition line (p : point) : P unit := bld (leaf DocModel.Line p).
Definition hardline (p : point) : P unit := bld (leaf Hardline p).
Definition group (p : point) : P point := bld (alloc [KGroup] p).
Definition indented (n : nat) (p : point) : P point := bld (alloc [KIndent (Z.of_nat n)] p).
Definition emit_opt (k : option token) (p : point) : P unit := match k with Some k => emit k p | None => pret tt end.
(** A line, or a space inside GNU statement expressions. *)
Definition gap_line (gnu : bool) (p : point) : P unit := if gnu then space p else hardline p.

(** parser.c:365-393 parser_semi *)
Fixpoint same_line (k : token) (l : list token) : nat :=
  match l with k' :: r => if is T_SEMI k' && (lno k =? lno k') then S (same_line k r) else 0 | [] => 0 end.
(** lexer_remove of all but the last of [n] tokens, which is consumed. *)
Definition pop_last (n : nat) : P (option token) :=
  fun s => match skipn (n - 1) (e_toks (lx s)) with
           | k :: r => Ok (Some k) (Ps (St (k :: e_done (lx s)) r (e_err (lx s))) (bd s))
           | [] => Ok None s
           end.
Definition semi (p : point) : P ret_ :=
  let! k := lexpect T_SEMI in
  match k with
  | None => fail_
  | Some k =>
      let! l := toks in
      let n := same_line k l in
      (if n =? 0 then emit k p else let! k := pop_last n in emit_opt k p);!
      good_
  end.

(** parser-expr.c:49-83 parser_expr; the arguments go with the style options. *)
Definition args (align indent : nat) (ln : bool) : setting :=
  Setting (s_align_operands S_) (s_break_binary S_) (s_align_bracket S_) (s_break_ternary S_) (a_nosoft S_) false ln false false align indent (s_parens S_) (s_sizeof S_).
Definition parser_expr (stop : nat) (a : setting) (p : point) : P (ret_ * point) :=
  fun s => match expr_exec stop tpeek braces (lx s) with
           | None => Bad
           | Some (x, l) =>
               if isnull x then Ok (if e_err l then FAIL else NONE, p) (Ps l (bd s))
               else match expr_doc_exec q D a x p (bd s) with
                    | Some (e, b) => Ok (if e_err l then FAIL else GOOD, e) (Ps l b)
                    | None => Bad
                    end
           end.

(** parser-stmt.c:133-144 is_case_on_same_line *)
Definition case_on_same_line (pv : token) (l : list token) : bool :=
  is T_CASE pv && match l with nx :: _ => is T_CASE nx && (lno pv =? lno nx) | [] => false end.

(** parser-stmt.c:206-218, the loop of parser_stmt_block; [n]: how many tokens follow the
    right brace.  The result: whether there was a statement, [None] if failed. *)
Fixpoint stmts (f : nat) (stmt : point -> P ret_) (switch : bool) (n : nat) (indent : point) (pv : token) (any : bool) : P (option bool) :=
  match f with
  | 0 => out_of_fuel
  | S f =>
      let! r := stmt indent in
      if is_good r then
        let! l := toks in
        if length l =? S n then pret (Some true)
        else
          (if switch && case_on_same_line pv l then space indent else hardline indent);!
          match l with
          | [] => let! _ := fail_ in pret None
          | pv :: _ => stmts f stmt switch n indent pv true
          end
      else pret (Some any)
  end.

(** parser-stmt.c:149-246 parser_stmt_block; the place for what follows the right brace. *)
Definition block (f : nat) (stmt : point -> P ret_) (switch gnu : bool) (head tail : point) : P (ret_ * point) :=
  let! l := toks in
  match if_pair T_LBRACE T_RBRACE l with
  | None => let! r := none_ in pret (r, tail)
  | Some r =>
      let after := if next_is T_SEMI r then skipn 1 r else r in
      set_toks (firstn (length l - length r) l ++ after);!
      let! lb := lexpect T_LBRACE in
      match lb with
      | None => let! r := fail_ in pret (r, tail)
      | Some lb =>
          emit lb head;!
          let! indent := (if switch then pret tail else indented iw tail) in
          let! n := bld (mark indent) in
          gap_line gnu indent;!
          let! l := toks in
          match l with
          | [] => let! r := fail_ in pret (r, tail)
          | pv :: _ =>
              let! any := stmts f stmt switch (length after) indent pv false in
              match any with
              | None => let! r := fail_ in pret (r, tail)
              | Some any =>
                  (if any then pret tt else bld (remove_at indent n));!
                  gap_line gnu tail;!
                  let! concat := group tail in
                  let! rb := lexpect T_RBRACE in
                  emit_opt rb concat;!
                  let! l := toks in
                  (if next_is T_SEMI l then semi concat else pret GOOD);!
                  let! r := good_ in
                  pret (r, concat)
              end
          end
      end
  end.

(** parser-stmt.c:248-279 peek_else_if, has_if_stmt_braces; [l]: after else *)
Definition peek_else_if (l : list token) : bool :=
  match l with e :: i :: _ => is T_ELSE e && is T_IF i && (lno e =? lno i) | _ => false end.
Definition has_if_braces (l : list token) : bool :=
  match seq [T_IF] l with
  | Some l => match if_pair T_LPAREN T_RPAREN l with Some r => next_is T_LBRACE r | None => false end
  | None => false
  end.

(** parser-stmt.c:486-612 parser_stmt_kw_expr *)
Definition kw_expr (f : nat) (stmt : point -> P ret_) (t : ttype) (elseif dowhile : bool) (p : point) : P ret_ :=
  let! prefix := (if elseif then lexpect T_ELSE else pret None) in
  if elseif && negb (isSome prefix) then fail_
  else
  let! kw := lexpect t in
  match kw with
  | None => fail_
  | Some kw =>
      let! l := toks in
      match if_pair T_LPAREN T_RPAREN l with
      | None => fail_
      | Some r =>
          let! dc := group p in
          (match prefix with Some k => emit k dc;! space dc | None => pret tt end);!
          emit kw dc;!
          (if is T_IDENT kw then pret tt else space dc);!
          let! w := (fun s => Ok (if openbsd then 0 else S (width (bd s) p)) s) in
          let! lp := lexpect T_LPAREN in
          match lp with
          | Some lp => if q_comment q lp then let! optional := bld (alloc [KOptional] dc) in emit lp optional else emit lp dc
          | None => pret tt
          end;!
          let! e := parser_expr (S (length r)) (args w cw false) dc in
          if is_fail (fst e) then fail_
          else
            let! rp := lexpect T_RPAREN in
            emit_opt rp (snd e);!
            if dowhile then semi (snd e)
            else
              let! l := toks in
              if next_is T_LBRACE l then
                space (snd e);!
                let! r := block f stmt (ttype_eqb t T_SWITCH) false (snd e) p in
                pret (fst r)
              else
                let! indent := indented iw p in
                hardline indent;!
                stmt indent
      end
  end.

(** parser-stmt.c:294-338, the loop of parser_stmt_if *)
Fixpoint elses (f : nat) (stmt : point -> P ret_) (has_braces : bool) (p : point) : P ret_ :=
  match f with
  | 0 => out_of_fuel
  | S f =>
      let! l := toks in
      if next_is T_ELSE l then
        (if has_braces then space p else hardline p);!
        if peek_else_if l then
          let! r := kw_expr f stmt T_IF true false p in
          if is_good r then elses f stmt (has_if_braces (skipn 1 l)) p else fail_
        else
          let! k := lexpect T_ELSE in
          match k with
          | None => fail_
          | Some k =>
              emit k p;!
              space p;!
              let! l := toks in
              if next_is T_LBRACE l then
                let! r := stmt p in
                if is_fail r then fail_ else good_
              else
                let! indent := indented iw p in
                hardline indent;!
                let! r := stmt indent in
                if is_good r then good_ else fail_
          end
      else good_
  end.
(** parser-stmt.c:281-341 parser_stmt_if *)
Definition stmt_if (f : nat) (stmt : point -> P ret_) (p : point) : P ret_ :=
  let! l := toks in
  if next_is T_IF l then
    let! r := kw_expr f stmt T_IF false false p in
    if is_good r then elses f stmt (has_if_braces l) p else fail_
  else none_.

(** parser-stmt.c:343-437 parser_stmt_for *)
Definition stmt_for (f : nat) (stmt : point -> P ret_) (p : point) : P ret_ :=
  let! k := lif T_FOR in
  match k with
  | None => none_
  | Some k =>
      let! loop := group p in
      emit k loop;!
      space loop;!
      let! lp := lexpect T_LPAREN in
      emit_opt lp loop;!
      let! w := (fun s => Ok (if s_align_operands S_ then width (bd s) p else cw) s) in
      let! d := other (WDecl false) loop in
      let! ok := (if is_good d then pret true
        else
          let! e := parser_expr 0 (args 0 w false) loop in
          if is_fail (fst e) then pret false
          else let! k := lexpect T_SEMI in emit_opt k (snd e);! pret true) in
      if negb ok then fail_
      else
        let! e := parser_expr 0 (args 0 w true) loop in
        if is_fail (fst e) then fail_
        else
          let! k := lexpect T_SEMI in
          match k with
          | None => fail_
          | Some k =>
              emit k (snd e);!
              let! e := parser_expr 0 (args 0 w true) loop in
              if is_fail (fst e) then fail_
              else
                let! rp := lexpect T_RPAREN in
                emit_opt rp (snd e);!
                let! l := toks in
                if next_is T_LBRACE l then
                  space (snd e);!
                  stmt p
                else
                  let! indent := indented iw p in
                  hardline indent;!
                  let! r := stmt indent in
                  if is_good r then good_ else fail_
          end
  end.

(** parser-stmt.c:439-484 parser_stmt_dowhile *)
Definition stmt_dowhile (f : nat) (stmt : point -> P ret_) (p : point) : P ret_ :=
  let! k := lif T_DO in
  match k with
  | None => none_
  | Some k =>
      emit k p;!
      let! l := toks in
      let! e := (if next_is T_LBRACE l then
          space p;!
          let! r := block f stmt false false p p in
          if is_good (fst r) then space (snd r);! pret r else let! r := fail_ in pret (r, p)
        else
          let! indent := indented iw p in
          hardline indent;!
          let! r := stmt indent in
          hardline p;!
          pret (r, p)) in
      if is_good (fst e) then
        let! l := toks in
        if next_is T_WHILE l then kw_expr f stmt T_WHILE false true (snd e) else fail_
      else fail_
  end.

(** parser-stmt.c:614-666 parser_stmt_label *)
Definition stmt_label (f : nat) (stmt : point -> P ret_) (p : point) : P ret_ :=
  let! l := toks in
  if isSome (seq [T_IDENT; T_COLON] l) then
    let! noindent := bld (alloc [KNoIndent] p) in
    let! k := lexpect T_IDENT in
    match k with Some k => bld (leaf (labelled k) noindent) | None => pret tt end;!
    let! c := lexpect T_COLON in
    match c with
    | Some c =>
        emit c noindent;!
        let! l := toks in
        if match l with nx :: _ => lno c =? lno nx | [] => false end then
          let! indent := bld (alloc [KIndent INDENT_FORCE] p) in
          stmt indent
        else good_
    | None => good_
    end
  else none_.

(** parser-stmt.c:708-733, the loop of parser_stmt_case *)
Fixpoint case_stmts (f : nat) (stmt : point -> P ret_) (kw : token) (indent : point) : P bool :=
  match f with
  | 0 => out_of_fuel
  | S f =>
      let! l := toks in
      if next_is T_CASE l || next_is T_DEFAULT l then pret true
      else match l with
      | [] => pret false
      | nx :: _ =>
          let! n := bld (mark indent) in
          (if lno kw =? lno nx then space indent else hardline indent);!
          let! r := stmt indent in
          if is_good r then case_stmts f stmt kw indent
          else bld (remove_at indent n);! pret true
      end
  end.
(** lexer_peek_until() *)
Fixpoint peek_until (t : ttype) (l : list token) : bool :=
  match l with k :: r => negb (is T_EOF k) && (is t k || peek_until t r) | [] => false end.
(** parser-stmt.c:668-736 parser_stmt_case *)
Definition stmt_case (f : nat) (stmt : point -> P ret_) (p : point) : P ret_ :=
  let! k := lif T_CASE in
  let! k := (match k with Some k => pret (Some k) | None => lif T_DEFAULT end) in
  match k with
  | None => none_
  | Some kw =>
      let! lhs := group p in
      emit kw lhs;!
      let! l := toks in
      if negb (peek_until T_COLON l) then fail_
      else
        let! r := (if is T_CASE kw then
            line lhs;!
            let! e := parser_expr 0 (args 0 0 false) lhs in
            pret (fst e)
          else pret GOOD) in
        if negb (is_good r) then fail_
        else
          let! c := lexpect T_COLON in
          match c with
          | None => fail_
          | Some c =>
              emit c lhs;!
              let! l := toks in
              let! r := (if next_is T_LBRACE l then line lhs;! stmt p else pret GOOD) in
              if is_fail r then fail_
              else
                let! indent := indented iw p in
                let! ok := case_stmts f stmt kw indent in
                if ok then good_ else fail_
          end
  end.

(** parser-stmt.c:738-841 *)
Definition stmt_goto (p : point) : P ret_ :=
  let! k := lif T_GOTO in
  match k with
  | None => none_
  | Some k =>
      let! concat := group p in
      emit k concat;!
      line concat;!
      let! k := lexpect T_IDENT in
      emit_opt k concat;!
      semi concat
  end.
Definition stmt_kw (t : ttype) (f : nat) (stmt : point -> P ret_) (p : point) : P ret_ :=
  let! l := toks in
  if next_is t l then kw_expr f stmt t false false p else none_.
Definition stmt_jump (t : ttype) (p : point) : P ret_ :=
  let! l := toks in
  if next_is t l then let! k := lexpect t in emit_opt k p;! semi p else none_.
Definition stmt_return (p : point) : P ret_ :=
  let! k := lif T_RETURN in
  match k with
  | None => none_
  | Some k =>
      let! concat := group p in
      emit k concat;!
      let! l := toks in
      if next_is T_SEMI l then semi concat
      else
        space concat;!
        let! e := parser_expr 0 (args 0 cw false) concat in
        if is_good (fst e) then semi (snd e) else fail_
  end.
Definition stmt_semi (p : point) : P ret_ :=
  let! l := toks in
  if next_is T_SEMI l then semi p else none_.
(** parser-stmt.c:846-863 parser_stmt_cpp *)
Definition peek_cpp (l : list token) : bool :=
  match seq [T_IDENT] l with
  | Some l => match if_pair T_LPAREN T_RPAREN l with Some r => negb (next_is T_SEMI r) | None => false end
  | None => false
  end.
Definition stmt_cpp (f : nat) (stmt : point -> P ret_) (p : point) : P ret_ :=
  let! l := toks in
  if peek_cpp l then kw_expr f stmt T_IDENT false false p else none_.

(** parser-stmt-expr.c:32-63 parser_stmt_expr *)
Definition stmt_expr (p : point) : P ret_ :=
  fun s =>
    let done := e_done (lx s) in
    let l := e_toks (lx s) in
    match (if decl_type done l then None else expr_peek done l) with
    | None => none_ s
    | Some n =>
        if next_is T_SEMI (skipn n l) && negb (loop_stmt done l) then
          (let! e := parser_expr 0 (args 0 cw false) p in
           if is_good (fst e) then semi (snd e) else fail_) s
        else none_ s
    end.

(** parser-stmt.c:89-131 parser_stmt1 *)
Fixpoint first_good (l : list (P ret_)) : P ret_ :=
  match l with
  | [] => none_
  | m :: l => let! r := m in if is_good r then good_ else first_good l
  end.
Definition stmt1 (f : nat) (stmt : point -> P ret_) (p : point) : P ret_ :=
  first_good [
    (let! r := block f stmt false false p p in pret (fst r));
    stmt_expr p;
    stmt_if f stmt p;
    stmt_return p;
    other (WDecl true) p;
    stmt_case f stmt p;
    stmt_jump T_BREAK p;
    stmt_goto p;
    stmt_for f stmt p;
    stmt_kw T_WHILE f stmt p;
    stmt_label f stmt p;
    stmt_kw T_SWITCH f stmt p;
    stmt_jump T_CONTINUE p;
    other WAsm p;
    stmt_dowhile f stmt p;
    stmt_semi p;
    stmt_cpp f stmt p].
Fixpoint stmt (f : nat) (p : point) : P ret_ := match f with 0 => out_of_fuel | S f => stmt1 f (stmt f) p end.
(** parser-stmt.c:70-87 parser_stmt; the bound is shown to be enough. *)
Definition parser_stmt (p : point) : P ret_ := fun s => stmt (S (length (e_toks (lx s)))) p s.
(** The body of a function: parser_stmt_block as called by parser_func_impl1. *)
Definition parser_block (p : point) : P (ret_ * point) := fun s => let f := S (length (e_toks (lx s))) in block f (stmt f) false false p p s.
(** parser-stmt-expr.c:65-73 parser_stmt_expr_gnu *)
Definition parser_stmt_expr_gnu (p : point) : P (ret_ * point) := fun s => let f := S (length (e_toks (lx s))) in block f (stmt f) false true p p s.
End Stmt.
