(** Model of expr.c (building the tree of an expression) and of its callbacks in
    parser-expr.c, of parser-type.c:parser_type_peek and parser-cpp.c:parser_cpp_peek_type.
    Left out: preprocessor branches (lexer_pop halting, suppressed errors), EXPR_MODE_PEEK,
    simple passes run from here (simple-expr-printf, simple-static, simple-implicit-int) and
    the documents built for recovered tokens. *)
From Verif Require Import Base TokenModel LexModel.

Definition ty (k : token) : ttype := t_type (k_tok k).
Definition is (t : ttype) (k : token) : bool := ttype_eqb (ty k) t.
Definition flag (f : N) (k : token) : bool := has_flag (t_flags (k_tok k)) f.

(** * Rules *)

(** expr.c:213-268, the er_func members. *)
Inductive efunc : Set := FLiteral | FBinary | FTernary | FConcat | FUnary | FPrepost | FSizeof | FParens | FSquares | FField.
(** expr.c struct expr_rule; [r_pc] is PC(er_pc), [r_unary] is er_pc & PCUNARY. *)
Record rule : Set := Rule { r_pc : nat; r_unary : bool; r_rassoc : bool; r_type : ttype; r_func : efunc }.
Definition B (pc : nat) (ra : bool) (t : ttype) (f : efunc) : rule := Rule pc false ra t f.
Definition U (pc : nat) (ra : bool) (t : ttype) (f : efunc) : rule := Rule pc true ra t f.

(** expr.c:213-268 rules *)
Definition rules : list rule := [
  U 0 false T_IDENT FLiteral;
  U 0 false T_LITERAL FLiteral;
  U 0 false T_STRING FLiteral;
  B 1 false T_COMMA FBinary;
  B 1 false T_ELLIPSIS FBinary;
  B 2 true T_EQUAL FBinary;
  B 2 true T_PLUSEQUAL FBinary;
  B 2 true T_MINUSEQUAL FBinary;
  B 2 true T_STAREQUAL FBinary;
  B 2 true T_SLASHEQUAL FBinary;
  B 2 true T_PERCENTEQUAL FBinary;
  B 2 true T_LESSLESSEQUAL FBinary;
  B 2 true T_GREATERGREATEREQUAL FBinary;
  B 2 true T_AMPEQUAL FBinary;
  B 2 true T_CARETEQUAL FBinary;
  B 2 true T_PIPEEQUAL FBinary;
  B 3 true T_QUESTION FTernary;
  B 4 false T_PIPEPIPE FBinary;
  B 5 false T_AMPAMP FBinary;
  B 6 false T_PIPE FBinary;
  B 7 false T_CARET FBinary;
  B 8 false T_AMP FBinary;
  B 9 false T_EQUALEQUAL FBinary;
  B 9 false T_EXCLAIMEQUAL FBinary;
  B 10 false T_LESS FBinary;
  B 10 false T_LESSEQUAL FBinary;
  B 10 false T_GREATER FBinary;
  B 10 false T_GREATEREQUAL FBinary;
  B 11 false T_LESSLESS FBinary;
  B 11 false T_GREATERGREATER FBinary;
  B 12 false T_IDENT FConcat;
  B 12 false T_LITERAL FConcat;
  B 12 false T_STRING FConcat;
  B 12 false T_PLUS FBinary;
  B 12 false T_MINUS FBinary;
  B 13 false T_STAR FBinary;
  B 13 false T_SLASH FBinary;
  B 13 false T_PERCENT FBinary;
  U 14 true T_EXCLAIM FUnary;
  U 14 true T_TILDE FUnary;
  B 14 true T_PLUSPLUS FPrepost;
  U 14 true T_PLUSPLUS FPrepost;
  U 14 true T_PLUS FUnary;
  B 14 true T_MINUSMINUS FPrepost;
  U 14 true T_MINUSMINUS FPrepost;
  U 14 true T_MINUS FUnary;
  U 14 true T_STAR FUnary;
  U 14 true T_AMP FUnary;
  U 14 true T_SIZEOF FSizeof;
  B 15 false T_LPAREN FParens;
  U 15 false T_LPAREN FParens;
  B 15 false T_LSQUARE FSquares;
  B 15 false T_ARROW FField;
  B 15 false T_PERIOD FField].

(** expr.c:293-304 expr_init: later rules win; expr_find_rule. *)
Definition find_rule (unary : bool) (t : ttype) : option rule :=
  fold_left (fun a r => if ttype_eqb (r_type r) t && Bool.eqb (r_unary r) unary then Some r else a) rules None.

(** * Trees *)

(** expr.c struct expr.  [ENull] is the NULL pointer, allowed as an operand.  The last
    argument of the bracketing forms is the closing token, [[]] if missing.  The elements of
    EXPR_CONCAT after the first are always literals. *)
Inductive expr : Set :=
| ENull
| EUnary (tk : token) (x : expr)
| EBinary (l : expr) (tk : token) (r : expr)
| EArg (l : expr) (tk : token) (r : expr)
| ETernary (c : expr) (q : token) (t : expr) (colon : list token) (f : expr)
| EPrefix (tk : token) (x : expr)
| EPostfix (x : expr) (tk : token)
| EParens (lp : token) (x : expr) (rp : list token)
| ESquares (l : expr) (lb : token) (x : expr) (rb : list token)
| EField (l : expr) (tk : token) (r : expr)
| ECall (l : expr) (lp : token) (x : expr) (rp : list token)
| ECast (lp : token) (t : expr) (rp : list token) (x : expr)
| ESizeof (tk : token) (lp : list token) (x : expr) (rp : list token)
| EConcat (x : expr) (ks : list token)
| ELiteral (tk : token)
| ERecover (ks : list token).
Definition isnull (x : expr) : bool := match x with ENull => true | _ => false end.

(** * Reading tokens *)

(** The part of struct lexer in use: the tokens consumed (last first), the ones that
    remain and st_flags.error. *)
Record st : Set := St { e_done : list token; e_toks : list token; e_err : bool }.
Definition take (n : nat) (s : st) : st := St (rev (firstn n (e_toks s)) ++ e_done s) (skipn n (e_toks s)) (e_err s).
Definition back_if (t : ttype) (done : list token) : bool := match done with k :: _ => is t k | [] => false end.
Definition next_is (t : ttype) (l : list token) : bool := match l with k :: _ => is t k | [] => false end.
(** lexer.c:620-640, 550-565 lexer_if, lexer_expect *)
Definition expect (t : ttype) (s : st) : list token * st :=
  match e_toks s with
  | k :: _ => if is t k then ([k], take 1 s) else ([], St (e_done s) (e_toks s) true)
  | [] => ([], St (e_done s) (e_toks s) true)
  end.

Section Parse.
(** es_ea.stop: how many tokens remain at the token to stop at, 0 for NULL. *)
Variable stop : nat.
(** parser-type.c:34-165 parser_type_peek with PARSER_TYPE_CAST or PARSER_TYPE_EXPR: the
    number of tokens that make up the type; see [type_peek] below. *)
Variable tpeek : bool -> list token -> list token -> option nat.
(** parser-braces.c:parser_braces or parser-stmt-expr.c:parser_stmt_expr_gnu: the number of
    tokens consumed; if none, whether an error was raised. *)
Variable braces : list token -> list token -> option nat * bool.

(** expr.c:668-681 expr_exec_peek *)
Definition peek (s : st) : option token :=
  match e_toks s with
  | k :: _ => if e_err s || (length (e_toks s) =? stop) || is T_EOF k then None else Some k
  | [] => None
  end.

(** parser-expr.c:85-140 expr_recover; parser_type() is taken to consume the tokens found. *)
Definition recover (s : st) : expr * st :=
  let done := e_done s in
  let toks := e_toks s in
  match tpeek false done toks with
  | Some n =>
      let nx := skipn n toks in
      if back_if T_SIZEOF done ||
         ((back_if T_LPAREN done || back_if T_COMMA done) && (next_is T_RPAREN nx || next_is T_COMMA nx || next_is T_EOF nx))
      then (ERecover (firstn n toks), take n s)
      else (ENull, s)
  | None =>
      match toks with
      | [] => (ENull, s)
      | k :: _ =>
          if flag F_BINARY k then
            (* The operator is consumed even if not wanted. *)
            if back_if T_LPAREN done || back_if T_COMMA done then (ERecover [k], take 1 s) else (ENull, take 1 s)
          else if is T_LBRACE k then
            match braces done toks with
            | (Some n, _) => (ERecover (firstn n toks), take n s)
            | (None, e) => (ENull, St done toks (e_err s || e))
            end
          else if is T_COMMA k then (ERecover [k], take 1 s)
          else (ENull, s)
      end
  end.

(** token.c:337-341, 270-286 token_has_spaces, token_has_line(tk, 1) *)
Definition has_spaces (k : token) : bool :=
  existsb (fun t => ttype_eqb (t_type t) T_SPACE && has_flag (t_flags t) F_OPTSPACE) (k_suf k).
Definition has_line1 (k : token) : bool :=
  existsb (fun t => ttype_eqb (t_type t) T_SPACE && negb (has_flag (t_flags t) F_OPTSPACE)) (k_suf k).

(** parser-expr.c:145-153 peek_binary_operator *)
Definition peek_binary_operator (rp : token) (l : list token) : bool :=
  match l with
  | op :: _ => flag F_BINARY op && has_spaces rp && (has_spaces op || has_line1 op)
  | [] => false
  end.

(** parser-expr.c:155-189 expr_recover_cast: the number of tokens of the type *)
Definition recover_cast (s : st) : option nat :=
  match tpeek true (e_done s) (e_toks s) with
  | None => None
  | Some n =>
      match skipn n (e_toks s) with
      | [] => None
      | rp :: r =>
          let r' := if next_is T_AMP r then skipn 1 r else r in
          if is T_RPAREN rp && negb (next_is T_RPAREN r) && negb (next_is T_COMMA r) && negb (peek_binary_operator rp r) &&
             negb (next_is T_AMP r && next_is T_TILDE r') && negb (next_is T_EOF r')
          then Some n else None
      end
  end.

(** * Building the tree *)

Definition bind {A C : Type} (a : option (A * st)) (f : A -> st -> option C) : option C :=
  match a with Some (x, s) => f x s | None => None end.

(** expr.c:461-666, the functions in the table.  [ex] is expr_exec1(); [lhs] is [ENull] if
    the token was met where an operand is expected.  [None]: assertion failed. *)
Definition apply (ex : nat -> st -> option (expr * st)) (er : rule) (tk : token) (lhs : expr) (s : st) : option (expr * st) :=
  match r_func er, isnull lhs with
  | FLiteral, true => Some (ELiteral tk, s)
  | FBinary, false =>
      let pc := if r_rassoc er then r_pc er - 1 else r_pc er in
      bind (ex pc s) (fun r s => Some (if is T_COMMA tk then EArg lhs tk r else EBinary lhs tk r, s))
  | FConcat, false =>
      Some (match lhs with EConcat x ks => EConcat x (ks ++ [tk]) | _ => EConcat lhs [tk] end, s)
  | FField, false => bind (ex (r_pc er) s) (fun r s => Some (EField lhs tk r, s))
  | FParens, true =>
      match recover_cast s with
      | Some n =>
          let t := ERecover (firstn n (e_toks s)) in
          let (rp, s) := expect T_RPAREN (take n s) in
          bind (ex (r_pc er) s) (fun x s => Some (ECast tk t rp x, s))
      | None => bind (ex 0 s) (fun x s => let (rp, s) := expect T_RPAREN s in Some (EParens tk x rp, s))
      end
  | FParens, false => bind (ex 0 s) (fun x s => let (rp, s) := expect T_RPAREN s in Some (ECall lhs tk x rp, s))
  | FPrepost, true => bind (ex (r_pc er) s) (fun x s => Some (EPrefix tk x, s))
  | FPrepost, false => Some (EPostfix lhs tk, s)
  | FSizeof, true =>
      if next_is T_LPAREN (e_toks s) then
        bind (ex 0 (take 1 s)) (fun x s' => let (rp, s') := expect T_RPAREN s' in Some (ESizeof tk (firstn 1 (e_toks s)) x rp, s'))
      else bind (ex (r_pc er) s) (fun x s => Some (ESizeof tk [] x [], s))
  | FSquares, false => bind (ex 0 s) (fun x s => let (rb, s) := expect T_RSQUARE s in Some (ESquares lhs tk x rb, s))
  | FTernary, _ =>
      bind (ex 0 s) (fun t s => let (c, s) := expect T_COLON s in
      bind (ex 1 s) (fun f s => Some (if isnull f then ENull else ETernary lhs tk t c f, s)))
  | FUnary, true => bind (ex (r_pc er) s) (fun x s => Some (EUnary tk x, s))
  | _, _ => None
  end.

(** expr.c:372-429 expr_exec1: [Exec] is the whole function, [Loop] the for loop once an
    operand was found.  [None]: out of fuel or assertion failed, excluded by C52_total. *)
Inductive mode : Set := Exec (pc : nat) | Loop (pc : nat) (x : expr).
Fixpoint run (fuel : nat) (m : mode) (s : st) : option (expr * st) :=
  match fuel with
  | 0 => None
  | S f =>
      match m with
      | Exec pc =>
          match peek s with
          | None => Some (ENull, s)
          | Some k =>
              let er := find_rule true (ty k) in
              let (x, s) := match er with
                            | Some _ => if is T_IDENT k then recover s else (ENull, s)
                            | None => recover s
                            end in
              if isnull x then
                match er with
                | None => Some (ENull, s)
                | Some er =>
                    match e_toks s with
                    | [] => Some (ENull, s)
                    | tk :: _ => bind (apply (fun pc => run f (Exec pc)) er tk ENull (take 1 s))
                                   (fun x s => if isnull x then Some (ENull, s) else run f (Loop pc x) s)
                    end
                end
              else run f (Loop pc x) s
          end
      | Loop pc x =>
          match peek s with
          | None => Some (x, s)
          | Some k =>
              match find_rule false (ty k) with
              | None => Some (x, s)
              | Some er =>
                  if r_pc er <=? pc then Some (x, s)
                  else bind (apply (fun pc => run f (Exec pc)) er k x (take 1 s))
                         (fun x s => if isnull x || e_err s then Some (ENull, s) else run f (Loop pc x) s)
              end
          end
      end
  end.

(** expr.c:306-322 expr_exec, up to the tree; [ENull]: no document. *)
Definition expr_exec (s : st) : option (expr * st) :=
  match run (2 * length (e_toks s) + 2) (Exec 0) s with
  | None => None
  | Some (x, s) => Some (if e_err s then ENull else x, s)
  end.
End Parse.

(** * Types *)

Definition opt (t : ttype) (l : list token) : list token := if next_is t l then skipn 1 l else l.
Definition optf (f : N) (l : list token) : list token := match l with k :: r => if flag f k then r else l | [] => l end.
Fixpoint many (t : ttype) (l : list token) : list token := match l with k :: r => if is t k then many t r else l | [] => l end.
(** Drop the given types one by one. *)
Fixpoint seq (ts : list ttype) (l : list token) : option (list token) :=
  match ts with
  | [] => Some l
  | t :: ts => match l with k :: r => if is t k then seq ts r else None | [] => None end
  end.
Definition isSome {A} (o : option A) : bool := match o with Some _ => true | None => false end.

(** lexer.c:679-728 lexer_if_pair: what remains after the closing token *)
Fixpoint pair_end (lhs rhs : ttype) (depth : nat) (l : list token) : option (list token) :=
  match l with
  | [] => None
  | k :: r =>
      if is T_EOF k then None
      else let d := if is lhs k then S depth else if is rhs k then depth - 1 else depth in
           if d =? 0 then Some r else pair_end lhs rhs d r
  end.
Definition if_pair (lhs rhs : ttype) (l : list token) : option (list token) := if next_is lhs l then pair_end lhs rhs 0 l else None.

(** parser-type.c:396-459 peek_type_noident, peek_type_unknown_array,
    peek_type_unknown_bitfield, peek_type_squares: what remains after the last token. *)
Definition noident (l : list token) : bool := isSome (seq [T_IDENT; T_RPAREN] l) || isSome (seq [T_IDENT; T_COMMA] l).
Definition squares (l : list token) : option (list token) :=
  match seq [T_LSQUARE] l with Some l => seq [T_RSQUARE] (opt T_LITERAL l) | None => None end.
Definition unknown_array (l : list token) : option (list token) := match seq [T_IDENT] l with Some l => squares l | None => None end.
Definition bitfield (l : list token) : bool := isSome (seq [T_IDENT; T_COLON; T_LITERAL] l).
(** parser-type.c:303-350 peek_type_func_ptr *)
Definition func_ptr (l : list token) : option (list token) :=
  match seq [T_LPAREN; T_STAR] l with
  | None => None
  | Some l =>
      let l := optf F_QUALIFIER (many T_STAR (optf F_QUALIFIER l)) in
      let ident := next_is T_IDENT l in
      let l := opt T_IDENT l in
      let l := if next_is T_LSQUARE l then opt T_RSQUARE (opt T_LITERAL (skipn 1 l)) else l in
      match seq [T_RPAREN] l with
      | None => None
      | Some l =>
          match if_pair T_LPAREN T_RPAREN l with
          | Some l => Some l
          | None => if negb ident && (next_is T_RPAREN l || next_is T_EOF l) then Some l else None
          end
      end
  end.
(** parser-type.c:354-373 peek_type_ptr_array *)
Definition ptr_array (l : list token) : option (list token) :=
  match seq [T_LPAREN; T_STAR] l with
  | None => None
  | Some l =>
      match seq [T_RPAREN; T_LSQUARE] (opt T_IDENT l) with
      | None => None
      | Some l => if next_is T_LITERAL l || next_is T_IDENT l then seq [T_RSQUARE] (skipn 1 l) else None
      end
  end.

Section TypePeek.
(** parser-cpp.c:22-26 is_list_entry *)
Variable list_entry : token -> bool.
(** parser-cpp.c:28-67 parser_cpp_peek_type *)
Definition cpp_type (l : list token) : option (list token) :=
  let a := match seq [T_IDENT; T_LPAREN; T_IDENT; T_RPAREN] l, l with
           | Some r, k :: _ =>
               match r with
               | nx :: _ => if (is T_IDENT nx && (t_lno (k_tok k) =? t_lno (k_tok nx))) || is T_STAR nx then Some r else None
               | [] => None
               end
           | _, _ => None
           end in
  match a with
  | Some r => Some r
  | None =>
      match l with
      | k :: _ => if list_entry k then match seq [T_IDENT; T_LPAREN; T_IDENT; T_COMMA; T_IDENT; T_RPAREN] l with
                                       | Some r => if next_is T_SEMI r then Some r else None
                                       | None => None
                                       end else None
      | [] => None
      end
  end.

(** parser-type.c:64-131, the loop of parser_type_peek with PARSER_TYPE_CAST or
    PARSER_TYPE_EXPR: what remains after [end], and peek, unknown, nkeywords, ntokens. *)
Fixpoint type_loop (fuel : nat) (issizeof : bool) (l : list token) (pk : bool) (nkw nt : nat) : list token * bool * bool * nat * nat :=
  match fuel with
  | 0 => (l, pk, false, nkw, nt)
  | S f =>
      let again l pk nkw := if issizeof then (l, pk, false, nkw, S nt) else type_loop f issizeof l pk nkw (S nt) in
      match l with
      | [] => (l, pk, false, nkw, nt)
      | k :: r =>
          if is T_EOF k then (l, pk, false, nkw, nt)
          else if flag (N.lor F_QUALIFIER F_STORAGE) k then again r pk (S nkw)
          else if flag F_TYPE k then
            let r := if is T_ENUM k || is T_STRUCT k || is T_UNION k then opt T_IDENT r else r in
            again (match squares r with Some r => r | None => r end) true nkw
          else if (0 <? nt) && is T_STAR k then
            if next_is T_IDENT r then (r, pk, false, nkw, nt) else again r true nkw
          else match cpp_type l with
          | Some r => again r true nkw
          | None =>
              if is T_IDENT k then again r (pk || (0 <? nkw)) nkw
              else match (if 0 <? nt then func_ptr l else None) with
              | Some r => (r, true, false, nkw, nt)
              | None =>
                  match (if 0 <? nt then ptr_array l else None) with
                  | Some r => (r, true, false, nkw, nt)
                  | None => (l, pk, true, nkw, nt)
                  end
              end
          end
      end
  end.

(** parser-type.c:34-165 parser_type_peek *)
Definition type_peek (cast : bool) (done l : list token) : option nat :=
  let sub r := Some (length l - length r) in
  if cast && noident l then Some 1
  else match (if cast then unknown_array l else None) with
  | Some r => sub r
  | None =>
      if bitfield l then Some 1
      else let '(r, pk, unknown, nkw, nt) := type_loop (length l) (back_if T_SIZEOF done) l false 0 0 in
           let pk := if (0 <? nt) && (nt =? nkw) then false else pk || (negb unknown && (0 <? nt)) in
           if pk then sub r else None
  end.
End TypePeek.
