(** Model of parser-type.c, parser-attributes.c, parser-cpp.c, parser-stmt-asm.c,
    parser-braces.c, parser-decl.c, parser-func.c, parser-extern.c and parser.c:123-215: how
    declarations, functions and a whole file are read and which documents are built for
    them.  Left out, as in SynModel: preprocessor branches (BRCH), recovery from errors
    (clang_recover), the simple passes (-s), what is remembered while looking ahead; the
    trimming and moving of spaces and comments is part of what [tok] gives for a token.

    Tokens that C code compares pointers to (the end of a type, a right parenthesis) are given
    by how many tokens follow. *)
From Verif Require Import Base TokenModel LexModel DocModel ExprModel BuildModel ExprDocModel SynModel.
Local Close Scope Q_scope.
Local Open Scope nat_scope.

(** * Documents added to later on *)

(** A pointer to a CONCAT that is kept: its depth and, for each document above, which child
    leads to it. *)
Definition handle : Type := (point * list nat)%type.
Definition sig (p : point) (b : bs) : list nat := map (fun f => length (f_kids f)) (firstn p (b_path b)).
Definition hold (p : point) : P handle := fun s => Ok (p, sig p (bd s)) s.
(** Adding to a CONCAT that something was added behind of: inside the document given, inside
    the documents of a path. *)
Fixpoint at_concat (u : list doc -> option (list doc)) (d : doc) : option doc :=
  match d with
  | Concat ds => option_map Concat (u ds)
  | Group d => option_map Group (at_concat u d)
  | Indent v d => option_map (Indent v) (at_concat u d)
  | NoIndent d => option_map NoIndent (at_concat u d)
  | Optional d => option_map Optional (at_concat u d)
  | Minimize i ms d => option_map (Minimize i ms) (at_concat u d)
  | Scope d => option_map Scope (at_concat u d)
  | Maxlines n d => option_map (Maxlines n) (at_concat u d)
  | _ => None
  end.
Fixpoint set_nth {A} (n : nat) (u : A -> option A) (l : list A) : option (list A) :=
  match l, n with
  | [], _ => None
  | a :: r, 0 => option_map (fun a => a :: r) (u a)
  | a :: r, S n => option_map (cons a) (set_nth n u r)
  end.
Fixpoint into (is : list nat) (x : doc) (d : doc) : option doc :=
  match is with
  | [] => at_concat (fun ds => Some (ds ++ [x])) d
  | i :: is => at_concat (set_nth i (into is x)) d
  end.
Fixpoint put (is : list nat) (x : doc) (fs : list frame) : option (list frame) :=
  match fs, is with
  | f :: r, i :: is =>
      if length (f_kids f) =? i then option_map (cons f) (put is x r)
      else option_map (fun ds => Frame (f_kinds f) (rev ds) (f_max f) :: r) (set_nth i (into is x) (rev (f_kids f)))
  | _, _ => None
  end.
Definition eq_sig (a b : list nat) : bool := if list_eq_dec Nat.eq_dec a b then true else false.

(** * Looking ahead *)

(** lexer_pop(), [None] if nothing but EOF remains. *)
Definition pop : P (option token) :=
  fun s => match e_toks (lx s) with
           | k :: _ => if is T_EOF k then Ok None s else Ok (Some k) (Ps (take 1 (lx s)) (bd s))
           | [] => Ok None s
           end.
(** lexer_if_flags() *)
Definition lif_flags (f : N) : P (option token) :=
  fun s => match e_toks (lx s) with
           | k :: _ => if flag f k then Ok (Some k) (Ps (take 1 (lx s)) (bd s)) else Ok None s
           | [] => Ok None s
           end.
(** The last token consumed. *)
Definition back : P (option token) := fun s => Ok (hd_error (e_done (lx s))) s.
(** The token followed by [r] others. *)
Definition tok_at (s : st) (r : nat) : option token := nth_error (rev (e_toks s) ++ e_done s) r.
Definition opt_is (t : ttype) (k : option token) : bool := match k with Some k => is t k | None => false end.
(** token.c:354-369 token_is_decl *)
Definition is_decl (s : st) (r : nat) (t : ttype) : bool :=
  match r with
  | 0 => false
  | S r' => opt_is T_LBRACE (tok_at s r') && (if opt_is T_IDENT (tok_at s r) then opt_is t (tok_at s (S r)) else opt_is t (tok_at s r))
  end.
Fixpoint many_flags (f : N) (l : list token) : list token := match l with k :: r => if flag f k then many_flags f r else l | [] => l end.
(** lexer.c:759-769 lexer_peek_until: the tokens from the one found on. *)
Fixpoint until (t : ttype) (l : list token) : option (list token) :=
  match l with k :: r => if is T_EOF k then None else if is t k then Some l else until t r | [] => None end.
(** lexer.c:779-815 lexer_peek_until_comma; [stop]: how many tokens there are from the token
    to stop at on. *)
Fixpoint until_comma (stop : nat) (nest : Z) (l : list token) : option (list token) :=
  match l with
  | [] => None
  | k :: r =>
      if (length l =? stop) || is T_EOF k then None
      else let nest := (if is T_LPAREN k || is T_LBRACE k then nest + 1 else if is T_RPAREN k || is T_RBRACE k then nest - 1 else nest)%Z in
           if is T_COMMA k && (nest =? 0)%Z then Some l else until_comma stop nest r
  end.

(** parser-attributes.c:13-43 parser_attributes_peek: what remains after [rparen]; [func]:
    PARSER_ATTRIBUTES_FUNC. *)
Fixpoint attrs_loop (f : nat) (func : bool) (l : list token) (acc : option (list token)) : option (list token) :=
  match f with
  | 0 => acc
  | S f =>
      let hidden l := (* attribute hidden behind cpp macro *)
        if func then
          match seq [T_IDENT] l with
          | Some l =>
              match if_pair T_LPAREN T_RPAREN l with
              | Some r => match seq [T_IDENT; T_LPAREN] r with Some l => attrs_loop f func l (Some r) | None => acc end
              | None => acc
              end
          | None => acc
          end
        else acc in
      match seq [T_ATTRIBUTE] l with
      | Some l => match if_pair T_LPAREN T_RPAREN l with Some r => attrs_loop f func r (Some r) | None => hidden l end
      | None => hidden l
      end
  end.
Definition attrs_peek (func : bool) (l : list token) : option (list token) := attrs_loop (S (length l)) func l None.
(** Moving past attributes. *)
Definition past_attrs (func : bool) (l : list token) : list token := match attrs_peek func l with Some r => r | None => l end.

(** struct parser_type *)
Record dtype : Set := Dtype { y_beg : nat; y_end : nat; y_align : option nat; y_args : option nat }.
(** parser-type.c:375-396 peek_type_ident_after_type *)
Definition ident_after (l : list token) : bool :=
  match seq [T_IDENT] l with
  | Some (k :: r) => flag F_ASSIGN k || is T_LSQUARE k || (is T_LPAREN k && negb (next_is T_STAR r)) || is T_RPAREN k || is T_SEMI k || is T_COMMA k || is T_COLON k || is T_ATTRIBUTE k
  | _ => false
  end.
(** parser-type.c:309-352 peek_type_func_ptr: what remains after [rhs] and [lhs]. *)
Definition func_ptr_args (l : list token) : option (list token * option nat) :=
  match seq [T_LPAREN; T_STAR] l with
  | None => None
  | Some l =>
      let l := optf F_QUALIFIER (many T_STAR (optf F_QUALIFIER l)) in
      let ident := next_is T_IDENT l in
      let l := opt T_IDENT l in
      let l := if next_is T_LSQUARE l then opt T_RSQUARE (opt T_LITERAL (skipn 1 l)) else l in
      match seq [T_RPAREN] l with
      | None => None
      | Some l =>
          match if_pair T_LPAREN T_RPAREN l with
          | Some r => Some (r, Some (length l - 1))
          | None => if negb ident && (next_is T_RPAREN l || next_is T_EOF l) then Some (l, None) else None
          end
      end
  end.

Section Peek.
(** parser-cpp.c:22-26 is_list_entry *)
Variable list_entry : token -> bool.
(** parser-type.c:60-129, the loop of parser_type_peek without flags or with PARSER_TYPE_ARG:
    what remains after [end]; peek, unknown, nkeywords, ntokens; align, args. *)
Record found : Set := Found { u_rest : list token; u_peek : bool; u_unknown : bool; u_nkw : nat; u_nt : nat; u_align : option nat; u_args : option nat }.
Fixpoint dtype_loop (fuel : nat) (issizeof : bool) (l : list token) (pk : bool) (nkw nt : nat) : found :=
  match fuel with
  | 0 => Found l pk false nkw nt None None
  | S f =>
      let again l pk nkw := if issizeof then Found l pk false nkw (S nt) None None else dtype_loop f issizeof l pk nkw (S nt) in
      match l with
      | [] => Found l pk false nkw nt None None
      | k :: r =>
          if is T_EOF k then Found l pk false nkw nt None None
          else if flag (N.lor F_QUALIFIER F_STORAGE) k then again r pk (S nkw)
          else if flag F_TYPE k then
            let r := if is T_ENUM k || is T_STRUCT k || is T_UNION k then opt T_IDENT r else r in
            again (match squares r with Some r => r | None => r end) true nkw
          else if (0 <? nt) && is T_STAR k then
            if next_is T_IDENT r then Found r pk false nkw nt None None else again r true nkw
          else match cpp_type list_entry l with
          | Some r => again r true nkw
          | None =>
              if is T_IDENT k then
                if ident_after l then Found l pk false nkw nt None None
                else again r (pk || (0 <? nkw)) nkw
              else match (if 0 <? nt then func_ptr_args l else None) with
              | Some (r, args) => Found r true false nkw nt (Some (length l)) args
              | None =>
                  match (if 0 <? nt then ptr_array l else None) with
                  | Some r => Found r true false nkw nt (Some (length l)) None
                  | None => Found l pk true nkw nt None None
                  end
              end
          end
      end
  end.
(** parser-type.c:32-177 parser_type_peek; [arg]: PARSER_TYPE_ARG; [issizeof]: whether the
    token before is sizeof. *)
Definition dtype_peek (arg issizeof : bool) (l : list token) : option dtype :=
  let only r := Some (Dtype (length l) (length r) None None) in
  if arg && noident l then only (skipn 1 l)
  else match (if arg then unknown_array l else None) with
  | Some r => only r
  | None =>
      if bitfield l then only (skipn 1 l)
      else let u := dtype_loop (length l) issizeof l false 0 0 in
           let pk := if (0 <? u_nt u) && (u_nt u =? u_nkw u) && negb arg then false else u_peek u || (negb (u_unknown u) && (0 <? u_nt u)) in
           if pk then Some (Dtype (length l) (length (u_rest u)) (u_align u) (u_args u)) else None
  end.
Definition type_at (arg : bool) (s : st) : option dtype := dtype_peek arg (back_if T_SIZEOF (e_done s)) (e_toks s).

(** parser-cpp.c:69-114 parser_cpp_peek_decl; [root]: PARSER_CPP_DECL_ROOT *)
Definition cpp_decl (root : bool) (l : list token) : option dtype :=
  match many_flags (N.lor F_QUALIFIER F_STORAGE) l with
  | macro :: r =>
      if is T_IDENT macro then
        match if_pair T_LPAREN T_RPAREN r with
        | Some r =>
            let r := many T_STAR r in
            let peek := match r with
                        | k :: nx =>
                            is T_EQUAL k || (root && is T_SEMI k) ||
                            (is T_IDENT k && (let rest := many T_IDENT r in
                               match nth_error r (length r - length rest - 1) with Some ident => lno macro =? lno ident | None => false end || next_is T_SEMI rest))
                        | [] => false
                        end in
            if peek then Some (Dtype (length l) (length r) None None) else None
        | None => None
        end
      else None
  | [] => None
  end.
(** parser-cpp.c:116-156 parser_cpp_peek_x: what remains after the right parenthesis. *)
Definition cpp_peek_x (s : st) : option (list token) :=
  match many_flags F_STORAGE (e_toks s) with
  | ident :: l =>
      if is T_IDENT ident then
        match if_pair T_LPAREN T_RPAREN l with
        | Some r =>
            let before := match e_done s with pv :: _ => lno pv <? lno ident | [] => true end in
            let behind := match r with
                          | nx :: _ => match nth_error l (length l - length r - 1) with
                                       | Some rparen => (lno rparen <? lno nx) && ((t_cno (k_tok ident) =? 1) || (t_cno (k_tok nx) <=? t_cno (k_tok ident)))
                                       | None => false
                                       end
                          | [] => true
                          end in
            if before && behind then Some r else None
        | None => None
        end
      else None
  | [] => None
  end.

(** parser-func.c:52-103 parser_func_peek1; the type and whether the function returns a
    function pointer (TOKEN_FLAG_TYPE_FUNC). *)
Inductive fpeek : Set := FNone | FDecl (ty : dtype) (ptr : bool) | FImpl (ty : dtype) (ptr : bool).
Definition func_peek (s : st) : fpeek :=
  let l := past_attrs true (e_toks s) in
  match dtype_peek false (if isSome (attrs_peek true (e_toks s)) then false else back_if T_SIZEOF (e_done s)) l with
  | None => FNone
  | Some ty =>
      let l := past_attrs true (skipn (length l - y_end ty) l) in
      let name := match seq [T_IDENT] l with
                  | Some l => Some (l, false)
                  | None => match seq [T_LPAREN; T_STAR; T_IDENT] l with
                            | Some l => match if_pair T_LPAREN T_RPAREN l with
                                        | Some l => match seq [T_RPAREN] l with Some l => Some (l, true) | None => None end
                                        | None => None
                                        end
                            | None => None
                            end
                  end in
      match name with
      | None => FNone
      | Some (l, ptr) =>
          match if_pair T_LPAREN T_RPAREN l with
          | None => FNone
          | Some l =>
              let l := past_attrs false l in
              if next_is T_SEMI l then FDecl ty ptr
              else if next_is T_LBRACE l then FImpl ty ptr
              else if isSome (dtype_peek false false l) then FImpl ty ptr (* K&R *)
              else FNone
          end
      end
  end.
(** parser-func.c:429-443 parser_func_arg_peek *)
Definition arg_peek (s : st) : option dtype :=
  match attrs_peek false (e_toks s) with
  | Some r => dtype_peek true false r
  | None => type_at true s
  end.
End Peek.

(** What is asked about tokens in addition to [queries]. *)
Record asks : Type := Asks {
  o_entry : token -> bool;      (** is_list_entry *)
  o_cdefs : token -> bool;      (** parser-cpp.c:267-293 iscdefs *)
  o_spaces : token -> bool;     (** token_has_spaces() *)
  o_line2 : token -> bool;      (** token_has_line(tk, 2) *)
  o_cpp : token -> bool;        (** a preprocessor directive before the token *)
  o_first : token -> bool;      (** parser-braces.c:56-63 is_first_token_on_line *)
  o_row : token -> bool;        (** parser-braces.c:69-84 is_row_aligned *)
  o_gap : token -> bytes;       (** token_find_suffix_spaces() *)
  o_ruler : token -> option Z;  (** ruler_indent(), ruler_dedent(): the DOC_INDENT, if any *)
  o_after : st -> bool          (** parser-func.c:449-480 want_line_after_func_impl *)
}.
(** Style options. *)
Record layout : Set := Layout {
  y_return_decl : bool; y_return_impl : bool;   (** AlwaysBreakAfterReturnType *)
  y_struct : bool; y_union : bool; y_enum : bool; y_func : bool; (** BraceWrapping *)
  y_before : bool; y_behind : bool              (** BitFieldColonSpacing *)
}.
(** PARSER_DECL_BREAK, PARSER_DECL_LINE, PARSER_DECL_ROOT, PARSER_DECL_TRIM_SEMI *)
Record dflags : Set := Dflags { d_break : bool; d_line : bool; d_root : bool; d_trim : bool }.
(** PARSER_BRACES_ENUM, PARSER_BRACES_INDENT_MAYBE, PARSER_BRACES_DEDENT; PARSER_BRACES_TRIM
    only trims. *)
Record bflags : Set := Bflags { b_enum : bool; b_maybe : bool; b_dedent : bool }.

Section Decl.
Variable q : queries.
Variable D : docs.
Variable iw cw : nat.
Variable S_ : setting.
Variable width : bs -> point -> nat.
Variable tpeek : bool -> list token -> list token -> option nat.
Variable braces : list token -> list token -> option nat * bool.
Variable O : asks.
Variable Y : layout.
(** Whether it counts as a failed assertion ([Bad]) if a token is put in front of others
    already emitted or if a document is removed again that tokens were emitted to. *)
Variable strict : bool.

Local Notation parser_expr := (parser_expr q D tpeek braces).
Local Notation emit := (emit D).
Local Notation emit_opt := (emit_opt D).
Definition argx (indent : nat) (soft hard nosoft ruler : bool) : setting :=
  Setting (s_align_operands S_) (s_break_binary S_) (s_align_bracket S_) (s_break_ternary S_) (nosoft || a_nosoft S_) ruler false soft hard 0 indent (s_parens S_) (s_sizeof S_).
Definition softline (p : point) : P unit := bld (leaf Softline p).
Definition column (k : token) (p : point) : P unit := bld (leaf (let '(i, s, t) := aligned D k in DocModel.Align i s t) p).
Definition optional (p : point) : P point := bld (alloc [KOptional] p).
Definition widthof (p : point) : P nat := fun s => Ok (width (bd s) p) s.
Definition state : P st := fun s => Ok (lx s) s.
(** A token that is expected. *)
Definition expect (t : ttype) (p : point) : P unit := let! k := lexpect t in emit_opt k p.
(** parser_doc_token() for a document kept. *)
Definition emit_at (k : token) (h : handle) : P unit :=
  fun s => if eq_sig (sig (fst h) (bd s)) (snd h) then emit k (fst h) s
           else if strict then Bad
           else match put (snd h) (tok D k) (b_path (bd s)) with Some fs => Ok tt (Ps (lx s) (Bs fs (b_id (bd s)))) | None => Bad end.
(** doc_remove() of all that was added, unless accepted.  Simplified: nothing but the line
    in front is removed at some places if an error was raised; no file is accepted then. *)
Definition attempt {A} (good : A -> bool) (m : P A) : P A :=
  fun s => match m s with Ok a s' => if good a then Ok a s' else Ok a (Ps (lx s') (bd s)) | Bad => Bad | Fuel => Fuel end.

(** ** Attributes *)

(** parser-attributes.c:67-97, the loop of parser_attributes; [e]: how many tokens follow the
    last right parenthesis; [ln]: whether a line is wanted, [hard]: DOC_HARDLINE *)
Fixpoint attrs (f : nat) (line_ : bool) (e n : nat) (hard : bool) (p : point) (out : option handle) : P (ret_ * option handle) :=
  match f with
  | 0 => out_of_fuel
  | S f =>
      let! k := lif T_ATTRIBUTE in
      let! k := (match k with Some k => pret (Some k) | None => lif T_IDENT end) in
      match k with
      | None => let! r := good_ in pret (r, out)
      | Some k =>
          (if line_ || (0 <? n) then (if hard then hardline p else line p) else pret tt);!
          let! concat := group p in
          emit k concat;!
          expect T_LPAREN concat;!
          let! lp := lif T_LPAREN in
          emit_opt lp concat;!
          let! x := parser_expr 0 (argx cw true false false false) concat in
          if is_good (fst x) then
            let! r1 := lexpect T_RPAREN in
            emit_opt r1 (snd x);!
            let! r2 := lif T_RPAREN in
            emit_opt r2 (snd x);!
            let! h := hold (snd x) in
            let! l := toks in
            if (isSome r1 || isSome r2) && (length l =? e) then let! r := good_ in pret (r, Some h)
            else attrs f line_ e (S n) false p (Some h)
          else let! r := fail_ in pret (r, None)
      end
  end.
(** parser-attributes.c:45-100 parser_attributes: with what [out] points to. *)
Definition attributes (f : nat) (func line_ : bool) (p : point) : P (ret_ * option handle) :=
  let! l := toks in
  match attrs_peek func l with
  | None => let! r := none_ in pret (r, None)
  | Some e =>
      let! pv := back in
      let! o := optional p in
      attrs f line_ (length e) 0 (match pv with Some pv => q_line q pv | None => false end) o None
  end.

(** ** Assembly *)

(** parser-stmt-asm.c:17-26 doc_asm_operand *)
Definition asm_operand_doc (p : point) : P point :=
  let! pv := back in
  let! p := group p in
  (if opt_is T_COLON pv then line p else softline p);!
  group p.
(** parser-stmt-asm.c:27-53, 55-107 *)
Definition asm_operand_cpp (p : point) : P ret_ :=
  let! p := asm_operand_doc p in
  let! l := toks in
  let! x := parser_expr (match until_comma 0 0 l with Some r => length r | None => 0 end) (argx 0 false false false false) p in
  if is_good (fst x) then
    let! c := lif T_COMMA in
    match c with
    | Some c => emit c (snd x);! line (snd x);! good_
    | None => good_
    end
  else fail_.
Definition asm_operand (p : point) : P ret_ :=
  let! l := toks in
  if next_is T_LSQUARE l || next_is T_STRING l then
    let! p := asm_operand_doc p in
    let! k := lif T_LSQUARE in
    match k with
    | Some k => emit k p;! expect T_IDENT p;! expect T_RSQUARE p;! line p
    | None => pret tt
    end;!
    let! k := lexpect T_STRING in
    match k with Some k => emit k p;! line p | None => pret tt end;!
    let! k := lexpect T_LPAREN in
    match k with
    | Some k =>
        emit k p;!
        let! x := parser_expr 0 (argx 0 false false false false) p in
        if is_good (fst x) then
          expect T_RPAREN (snd x);!
          let! c := lif T_COMMA in
          match c with
          | Some c => emit c (snd x);! line (snd x);! good_
          | None => good_
          end
        else fail_
    | None => good_
    end
  else if next_is T_IDENT l then asm_operand_cpp p
  else none_.
Fixpoint asm_operands (f : nat) (p : point) (n : nat) : P nat :=
  match f with
  | 0 => out_of_fuel
  | S f => let! r := asm_operand p in if is_good r then asm_operands f p (S n) else pret n
  end.
(** parser-stmt-asm.c:167-173, qualifiers; the last one *)
Fixpoint asm_qualifiers (f : nat) (p : point) (last : option token) : P (option token) :=
  match f with
  | 0 => out_of_fuel
  | S f =>
      let! k := lif T_VOLATILE in
      let! k := (match k with Some k => pret (Some k) | None => lif T_INLINE end) in
      let! k := (match k with Some k => pret (Some k) | None => lif T_GOTO end) in
      match k with
      | Some k => line p;! emit k p;! asm_qualifiers f p (Some k)
      | None => pret last
      end
  end.
(** Operands behind a colon: parser-stmt-asm.c:199-219; how many there are and the place for
    what follows. *)
Definition asm_part (f : nat) (ln : bool) (o : point) (cur : point) : P (nat * point) :=
  let! c := lif T_COLON in
  match c with
  | Some c =>
      let! p := group o in
      (if ln then line p else pret tt);!
      emit c p;!
      let! i := indented 2 p in
      let! n := asm_operands f i 0 in
      pret (n, i)
  | None => pret (0, cur)
  end.
(** Clobbers and labels: parser-stmt-asm.c:221-248 *)
Definition asm_list (ln : bool) (o cur : point) : P (bool * point) :=
  let! c := lif T_COLON in
  match c with
  | Some c =>
      let! p := group o in
      (if ln then line p else pret tt);!
      emit c p;!
      let! l := toks in
      (if next_is T_RPAREN l then pret tt else line p);!
      let! x := parser_expr 0 (argx 0 false false false false) p in
      pret (negb (is_fail (fst x)), p)
  | None => pret (true, cur)
  end.
(** parser-stmt-asm.c:151-254 parser_asm *)
Definition asm (f : nat) (p : point) : P ret_ :=
  let! l := toks in
  if next_is T_ASSEMBLY l then
    let! concat := group p in
    expect T_ASSEMBLY concat;!
    let! qual := asm_qualifiers f concat None in
    (match qual with Some k => if o_spaces O k then line concat else pret tt | None => pret tt end);!
    let! o := bld (alloc [KOptional; KIndent (Z.of_nat cw)] p) in
    expect T_LPAREN o;!
    let! l := toks in
    let! x := parser_expr (match until T_COLON l with Some r => length r | None => 0 end) (argx 0 false false false false) o in
    if is_good (fst x) then
      let! a := asm_part f true o o in
      let! b := asm_part f (0 <? fst a) o (snd a) in
      let! c := asm_list (0 <? fst b) o (snd b) in
      if fst c then
        let! d := asm_list false o (snd c) in
        if fst d then expect T_RPAREN (snd d);! good_ else fail_
      else fail_
    else fail_
  else none_.
(** parser-stmt-asm.c:135-149, 117-127 parser_stmt_asm, parser_root_asm *)
Definition stmt_asm (f : nat) (p : point) : P ret_ :=
  let! r := asm f p in
  if is_good r then expect T_SEMI p;! good_ else pret r.
Definition root_asm (f : nat) (p : point) : P ret_ :=
  let! r := stmt_asm f p in
  if is_good r then hardline p;! good_ else pret r.

(** ** Types and arguments of functions *)

(** parser-type.c:179-207 find_align_token *)
Fixpoint skip_stars (f : nat) (s : st) (beg r : nat) : nat :=
  match f with
  | 0 => r
  | S f => if opt_is T_STAR (tok_at s r) then if S r =? beg then r else skip_stars f s beg (S r) else r
  end.
Definition find_align (s : st) (ty : dtype) : option nat :=
  let r := skip_stars (y_beg ty) s (y_beg ty) (match y_align ty with Some r => r | None => y_end ty end) in
  match r with
  | 0 => Some r
  | S r' => if opt_is T_SEMI (tok_at s r') then None else Some r
  end.
(** parser-type.c:282-303: whether a line is wanted between [tk] and the tokens [l]. *)
Definition type_gap (tk : token) (l : list token) : bool :=
  negb (is T_STAR tk) && negb (is T_LPAREN tk) && negb (is T_LSQUARE tk) &&
  match l with
  | nx :: r => (negb (is T_LPAREN nx) || next_is T_STAR r) && negb (is T_LSQUARE nx) && negb (is T_RSQUARE nx) && negb (is T_RPAREN nx) && negb (is T_COMMA nx)
  | [] => false
  end.
Definition opt_eq (a : option nat) (n : nat) : bool := match a with Some a => a =? n | None => false end.

(** parser-func.c:193-267 parser_func_arg once its type is known; [rec]: parser_type();
    [rparen]: how many tokens follow the right parenthesis. *)
Fixpoint arg_tokens (f : nat) (rparen : nat) (pv : option token) (p : point) : P ret_ :=
  match f with
  | 0 => out_of_fuel
  | S f =>
      let! l := toks in
      if next_is T_EOF l then fail_
      else
        let! a := attributes f false true p in
        if is_fail (fst a) then fail_
        else
          let! c := lif T_COMMA in
          match c with
          | Some c => emit c p;! line p;! good_
          | None =>
              let! l := toks in
              if length l =? S rparen then good_
              else
                let! k := pop in
                match k with
                | None => fail_
                | Some k =>
                    (if opt_is T_IDENT pv && is T_IDENT k then line p else pret tt);!
                    emit k p;!
                    arg_tokens f rparen (Some k) p
                end
          end
  end.
Definition func_arg (f : nat) (rec : dtype -> point -> P ret_) (rparen : nat) (p : point) : P (ret_ * option handle) :=
  let! s := state in
  match arg_peek (o_entry O) s with
  | None => let! r := none_ in pret (r, None)
  | Some ty =>
      let! concat := group p in
      softline concat;!
      let! concat := optional concat in
      let! a := attributes f false false concat in
      (match a with (GOOD, Some h) => line (fst h) | _ => pret tt end);!
      let! r := rec ty concat in
      if is_good r then
        let! concat := group concat in
        let! h := hold concat in
        let! s := state in
        let l := e_toks s in
        (if negb (opt_is T_STAR (tok_at s (y_end ty))) && negb (next_is T_COMMA l) && negb (next_is T_RPAREN l) && negb (next_is T_ATTRIBUTE l)
         then line concat else pret tt);!
        let! r := arg_tokens f rparen None concat in
        pret (r, Some h)
      else let! r := fail_ in pret (r, None)
  end.
(** while (parser_func_arg() & GOOD); what [out] points to after. *)
Fixpoint func_args (f : nat) (rec : dtype -> point -> P ret_) (rparen : nat) (p : point) (out : option handle) : P (option handle) :=
  match f with
  | 0 => out_of_fuel
  | S f =>
      let! r := func_arg f rec rparen p in
      if is_good (fst r) then func_args f rec rparen p (snd r) else pret out
  end.
(** parser-type.c:224-306, the loop of parser_type.  Without an end in sight it goes on with
    EOF. *)
Fixpoint type_tokens (f : nat) (args : nat -> point -> P unit) (ty : dtype) (align : option nat) (p : point) : P ret_ :=
  match f with
  | 0 => out_of_fuel
  | S f =>
      let! k := pop in
      match k with
      | None => out_of_fuel
      | Some k =>
          let! l := toks in
          if opt_eq (y_args ty) (length l) then
            emit k p;!
            let! w := (if s_align_bracket S_ then widthof p else pret cw) in
            let! i := indented w p in
            args (y_end ty) i;!
            expect T_RPAREN p;!
            good_
          else
            let! concat := group p in
            emit k concat;!
            let! x := (if is T_LPAREN k then parser_expr 0 (argx cw false false false false) concat else pret (GOOD, concat)) in
            if is_good (fst x) then
              let! s := state in
              let l := e_toks s in
              match e_done s with
              | [] => fail_
              | tk :: _ =>
                  let here := opt_eq align (length l) in
                  (if here then
                     (if is_decl s (length l) T_ENUM || is_decl s (length l) T_STRUCT || is_decl s (length l) T_UNION then line (snd x) else column tk (snd x))
                   else pret tt);!
                  if length l =? y_end ty then good_
                  else
                    (if negb here && type_gap tk l then line (snd x) else pret tt);!
                    type_tokens f args ty align p
              end
            else pret (fst x)
      end
  end.
(** parser-type.c:209-307 parser_type; [rl]: whether there is a ruler. *)
Fixpoint ptype (f : nat) (rl : bool) (ty : dtype) (p : point) : P ret_ :=
  match f with
  | 0 => out_of_fuel
  | S f =>
      let! s := state in
      if length (e_toks s) =? y_beg ty then
        type_tokens f (fun e i => let! _ := func_args f (ptype f false) e i None in pret tt) ty (if rl then find_align s ty else None) p
      else fun _ => Bad
  end.

(** ** Initializers in braces *)

(** parser-braces.c:324-382 parser_braces_field1 *)
Definition field1 (enum : bool) (p : point) : P ret_ :=
  let! k := lif T_LSQUARE in
  match k with
  | Some k =>
      emit k p;!
      let! x := parser_expr 0 (argx 0 false false false false) p in
      if is_good (fst x) then expect T_RSQUARE (snd x);! good_ else fail_
  | None =>
      let! k := lif T_PERIOD in
      match k with
      | Some k => emit k p;! expect T_IDENT p;! good_
      | None =>
          let! k := lif T_IDENT in
          match k with
          | Some k =>
              emit k p;!
              let! lp := (if enum then lif T_LPAREN else pret None) in
              match lp with
              | Some lp =>
                  emit lp p;!
                  let! x := parser_expr 0 (argx 0 false false false false) p in
                  if is_fail (fst x) then fail_ else expect T_RPAREN (snd x);! good_
              | None => good_
              end
          | None => none_
          end
      end
  end.
Fixpoint fields (f : nat) (enum : bool) (p : point) (n : nat) : P (option nat) :=
  match f with
  | 0 => out_of_fuel
  | S f =>
      let! r := field1 enum p in
      match r with
      | GOOD => fields f enum p (S n)
      | NONE => pret (Some n)
      | FAIL => pret None
      end
  end.
(** parser-braces.c:278-322 parser_braces_field; [rbrace]: how many tokens there are from the
    right brace on. *)
Definition field (f : nat) (enum : bool) (rbrace indent : nat) (p : point) : P ret_ :=
  let! n := fields f enum p 0 in
  match n with
  | Some (S _) =>
      let! pv := back in
      let! k := lif T_EQUAL in
      match k with
      | Some k =>
          match pv with Some pv => column pv p | None => pret tt end;!
          emit k p;!
          space p;!
          let! l := toks in
          let! x := parser_expr (match until_comma rbrace 0 l with Some r => length r | None => rbrace end) (argx indent false (q_line q k) false false) p in
          if is_good (fst x) then good_ else fail_
      | None => good_
      end
  | _ => fail_
  end.
(** parser-braces.c:384-413 peek_expr_stop, lbrace_cache_lookup; the cache after *)
Definition expr_stop (s : st) (cache : option (option nat)) (rbrace : nat) : nat * option (option nat) :=
  match cpp_peek_x s with
  | Some r => (length r, cache)
  | None =>
      let c := match cache with Some c => c | None => option_map (@length token) (until T_LBRACE (e_toks s)) end in
      let stop := match c with Some n => n | None => rbrace end in
      (match until_comma stop 0 (e_toks s) with Some r => length r | None => stop end, Some c)
  end.
(** parser-braces.c:86-276 parser_braces_with_ruler.  [items] is the loop; [i]: the document
    for the elements within [p]; [n]: how many tokens follow the right brace; the result: where
    the right brace goes.  Once the next token is the right brace the loop ends; here this
    is done at once. *)
Definition elem (f : nat) (rec : point -> P ret_) (enum : bool) (n indent : nat) (cache : option (option nat)) (concat : point) : P (ret_ * point * option (option nat)) :=
  let! s := state in
  let l := e_toks s in
  if enum || next_is T_PERIOD l || next_is T_LSQUARE l then
    let! r := field f enum (S n) indent concat in pret ((r, concat), cache)
  else if next_is T_LBRACE l then
    let! r := rec concat in pret ((r, concat), cache)
  else
    let '(stop, cache) := expr_stop s cache (S n) in
    let! x := parser_expr stop (argx 0 false false true true) concat in
    pret (x, cache).
Fixpoint items (f : nat) (rec : point -> P ret_) (fl : bflags) (align : bool) (n indent : nat) (p i : point) (cache : option (option nat)) : P (ret_ * point) :=
  match f with
  | 0 => out_of_fuel
  | S f =>
      let! l := toks in
      match l with
      | [] => let! r := fail_ in pret (r, p)
      | k :: _ =>
          if is T_EOF k then let! r := fail_ in pret (r, p)
          else if length l =? S n then pret (GOOD, p)
          else
            let! concat := group i in
            let! x := elem f rec (b_enum fl) n indent cache concat in
            if is_good (fst (fst x)) then
              let! c := lif T_COMMA in
              match c with Some c => emit c (snd (fst x)) | None => pret tt end;!
              if isSome c && align then
                match c with Some c => column c concat | None => pret tt end;!
                items f rec fl align n indent p i (snd x)
              else
                let! pv := back in
                let! l := toks in
                match pv, l with
                | Some pv, nx :: _ =>
                    if o_spaces O pv && negb (q_line q pv) then
                      bld (leaf (Literal (o_gap O pv)) concat);!
                      items f rec fl align n indent p i (snd x)
                    else if is T_COMMA pv && (lno pv =? lno nx) then
                      line i;!
                      items f rec fl align n indent p i (snd x)
                    else if length l =? S n then
                      if lno pv <? lno nx then
                        let! p := (if b_dedent fl then bld (alloc [KIndent (- Z.of_nat indent)] p) else pret p) in
                        hardline p;!
                        pret (GOOD, p)
                      else pret (GOOD, p)
                    else if is T_RPAREN pv && negb (q_line q pv) then items f rec fl align n indent p i (snd x)
                    else
                      hardline i;!
                      items f rec fl align n indent p i (snd x)
                | _, _ => let! r := fail_ in pret (r, p)
                end
            else let! r := fail_ in pret (r, p)
      end
  end.
Definition braces_head (fl : bflags) (lb : token) (indent : nat) (parent p : point) : P point :=
  if q_line q lb then
    let! i := bld (alloc [KIndent (if b_maybe fl then Z.lor (Z.of_nat indent) INDENT_NEWLINE else Z.of_nat indent)] p) in
    hardline i;!
    pret i
  else
    (if o_spaces O lb then space p else pret tt);!
    if o_row O lb then let! w := widthof parent in indented w p
    else if negb (o_first O lb) then indented indent p
    else let! w := widthof p in indented w p.
Fixpoint pbraces (f : nat) (fl : bflags) (indent : nat) (parent p : point) : P ret_ :=
  match f with
  | 0 => out_of_fuel
  | S f =>
      let! l := toks in
      match if_pair T_LBRACE T_RBRACE l with
      | None => fail_
      | Some r =>
          let! b := bld (alloc [] p) in
          let! lb := lexpect T_LBRACE in
          match lb with
          | None => fail_
          | Some lb =>
              emit lb b;!
              let align := match nth_error l (length l - length r - 1) with Some rb => lno lb =? lno rb | None => false end in
              let! l := toks in
              let! e := (if next_is T_RBRACE l then (if o_spaces O lb then space b else pret tt);! pret (GOOD, b)
                         else
                           let! i := braces_head fl lb indent parent b in
                           items f (pbraces f (Bflags (b_enum fl) (b_maybe fl) false) indent parent) fl align (length r) indent b i None) in
              if is_good (fst e) then
                expect T_RBRACE (snd e);!
                let! l := toks in
                (if next_is T_SEMI l || next_is T_COMMA l || next_is T_RBRACE l || next_is T_RPAREN l || next_is T_ATTRIBUTE l then pret tt else space (snd e));!
                good_
              else fail_
          end
      end
  end.

(** ** Declarations *)

(** parser-cpp.c:158-194 parser_cpp_x *)
Fixpoint storages (f : nat) (p : point) : P unit :=
  match f with
  | 0 => out_of_fuel
  | S f => let! k := lif_flags F_STORAGE in match k with Some k => emit k p;! line p;! storages f p | None => pret tt end
  end.
Definition cpp_x (f : nat) (p : point) : P ret_ :=
  let! s := state in
  match cpp_peek_x s with
  | None => none_
  | Some r =>
      let! concat := group p in
      storages f concat;!
      let! x := parser_expr (length r) (argx 0 false false false true) concat in
      if is_good (fst x) then
        (match nth_error (e_toks s) (length (e_toks s) - length r - 1) with Some rp => if o_line2 O rp then hardline concat else pret tt | None => pret tt end);!
        good_
      else fail_
  end.
(** parser-cpp.c:196-218, 220-241 parser_cpp_cdefs, parser_cpp_decl_root *)
Definition cdefs (p : point) : P ret_ :=
  let! l := toks in
  match l with
  | k :: nx :: _ => if is T_IDENT k && (lno k <? lno nx) && o_cdefs O k then expect T_IDENT p;! good_ else none_
  | _ => none_
  end.
Definition decl_root (p : point) : P ret_ :=
  let! l := toks in
  if isSome (seq [T_IDENT; T_SEMI] l) then expect T_IDENT p;! expect T_SEMI p;! good_ else none_.
(** parser-decl.c:448-466 parser_decl_bitfield *)
Definition bit_field (p : point) : P ret_ :=
  let! c := lif T_COLON in
  match c with
  | None => none_
  | Some c =>
      (if y_before Y then space p else pret tt);!
      emit c p;!
      (if y_behind Y then space p else pret tt);!
      expect T_LITERAL p;!
      good_
  end.
(** parser-decl.c:328-394 parser_decl_init1 and parser_decl_peek_parens_or_squares; [out]: what
    it points to. *)
Definition init_pair (l r : ttype) (p : point) : P ret_ :=
  expect l p;!
  let! x := parser_expr 0 (argx 0 false false false false) p in
  expect r (if is_good (fst x) then snd x else p);!
  let! l := toks in
  (if next_is T_IDENT l then space p else pret tt);!
  good_.
Definition init1 (f : nat) (out : option handle) (p : point) : P (ret_ * option handle) :=
  let! k := lif T_IDENT in
  match k with
  | Some k =>
      emit k p;!
      let! l := toks in
      (if next_is T_IDENT l then space p else pret tt);!
      let! h := hold p in
      let! r := good_ in
      pret (r, Some h)
  | None =>
      let! l := toks in
      if isSome (if_pair T_LSQUARE T_RSQUARE l) then let! r := init_pair T_LSQUARE T_RSQUARE p in pret (r, out)
      else if isSome (if_pair T_LPAREN T_RPAREN l) then let! r := init_pair T_LPAREN T_RPAREN p in pret (r, out)
      else
        let! r := bit_field p in
        if is_good r then pret (r, out)
        else
          let! k := lif_flags (N.lor F_QUALIFIER F_STORAGE) in
          match k with
          | Some k => emit k p;! space p;! let! r := good_ in pret (r, out)
          | None =>
              let! k := lif T_STAR in
              match k with
              | Some k => emit k p;! let! r := good_ in pret (r, out)
              | None =>
                  let! a := attributes f false true p in
                  if is_good (fst a) then
                    let! l := toks in
                    (if next_is T_SEMI l || next_is T_EQUAL l then pret tt else space p);!
                    let! r := good_ in
                    pret (r, snd a)
                  else
                    let! l := toks in
                    if next_is T_ASSEMBLY l then line p;! let! r := asm f p in pret (r, out)
                    else let! r := none_ in pret (r, out)
              end
          end
  end.
(** parser-decl.c:396-446 parser_decl_init_assign; [dc]: the document of the declaration;
    [semi]: how many tokens there are from the semicolon on. *)
Definition init_assign (f : nat) (spc : bool) (semi : nat) (dc : point) (out : option handle) (p : point) : P (ret_ * option handle) :=
  let! k := lif T_EQUAL in
  match k with
  | None => let! r := none_ in pret (r, out)
  | Some k =>
      (if spc then space p else pret tt);!
      emit k p;!
      space p;!
      let! dedent := bld (alloc (match o_ruler O k with Some v => [KIndent (- v)] | None => [] end) p) in
      let! l := toks in
      if next_is T_LBRACE l then
        let! r := pbraces f (Bflags false false false) iw dc dedent in
        if is_good r then let! h := hold dedent in let! r := good_ in pret (r, Some h)
        else let! r := fail_ in pret (r, out)
      else
        let! x := parser_expr (match until_comma semi 0 l with Some r => length r | None => semi end) (argx cw false (q_line q k) false false) dedent in
        if is_good (fst x) then let! h := hold (snd x) in let! r := good_ in pret (r, Some h)
        else let! r := fail_ in pret (r, out)
  end.
(** parser-decl.c:291-320, the loop of parser_decl_init; [dc]: the document of the
    declaration, [p]: of all declarators, [concat]: of this one; ninit and [out] after. *)
Fixpoint inits (f : nat) (spc : bool) (semi : nat) (dc p concat : point) (out : option handle) (n : nat) : P (nat * option handle) :=
  match f with
  | 0 => out_of_fuel
  | S f =>
      let! l := toks in
      if next_is T_SEMI l && (length l =? semi) then pret (n, out)
      else
        let! c := lif T_COMMA in
        let! concat := (match c with
          | Some c =>
              emit c concat;!
              (if q_line q c then hardline concat else line concat);!
              let! concat := group p in
              softline concat;!
              group concat
          | None => pret concat
          end) in
        let! r := init1 f out concat in
        let! r := (match fst r with NONE => init_assign f spc semi dc (snd r) concat | _ => pret r end) in
        if is_good (fst r) then inits f spc semi dc p concat (snd r) (S n) else pret (n, snd r)
  end.
(** parser-decl.c:274-326 parser_decl_init *)
Definition decl_init (f : nat) (spc : bool) (semi : nat) (dc : point) : P (ret_ * option handle) :=
  fun s =>
    (let! p := bld (alloc (match e_toks (lx s) with k :: _ => match o_ruler O k with Some v => [KIndent v] | None => [] end | [] => [] end) dc) in
     let! concat := group p in
     let! n := inits f spc semi dc p concat None 0 in
     if fst n =? 0 then
       fun s' => if strict && negb (length (e_toks (lx s')) =? length (e_toks (lx s))) then Bad
                 else (let! r := good_ in pret (r, snd n)) (Ps (lx s') (bd s))
     else let! r := good_ in pret (r, snd n)) s.
(** parser-decl.c:468-500 parser_decl_braces; [decl]: parser_decl() without flags *)
Definition decl_braces (decl : point -> P ret_) (wrapped : bool) (p : point) : P ret_ :=
  let! l := toks in
  match if_pair T_LBRACE T_RBRACE l with
  | None => fail_
  | Some _ =>
      let! lb := lexpect T_LBRACE in
      match lb with
      | Some lb => (if wrapped then hardline p else pret tt);! emit lb p
      | None => pret tt
      end;!
      let! i := indented iw p in
      hardline i;!
      let! r := decl i in
      if is_fail r then fail_
      else
        hardline p;!
        expect T_RBRACE p;!
        let! l := toks in
        (if next_is T_SEMI l || next_is T_ATTRIBUTE l then pret tt else space p);!
        good_
  end.

(** parser-func.c:305-427 parser_func_proto; with what [out] points to.  The DOC_MINIMIZE
    (or indentation) of the arguments is left out if there are none, it would be empty. *)
Definition proto_ptr (f : nat) (concat : point) : P bool :=
  expect T_LPAREN concat;!
  expect T_STAR concat;!
  expect T_IDENT concat;!
  let! l := toks in
  match if_pair T_LPAREN T_RPAREN l with
  | None => pret false
  | Some r =>
      expect T_LPAREN concat;!
      let! _ := func_args f (ptype f false) (length r) concat None in
      expect T_RPAREN concat;!
      expect T_RPAREN concat;!
      pret true
  end.
Definition proto_args (f : nat) (dc concat : point) : P (option handle) :=
  let! l := toks in
  match if_pair T_LPAREN T_RPAREN l with
  | None => pret None
  | Some r =>
      expect T_LPAREN concat;!
      let ms := [(INDENT_WIDTH, false); (Z.of_nat cw, false)] in
      let! s := state in
      let! h :=
        match arg_peek (o_entry O) s with
        | None =>
            let! h := hold concat in
            pret (Some h)
        | Some _ =>
            let! i := (if s_align_bracket S_ then bld (minimize ms dc) else indented cw concat) in
            func_args f (ptype f false) (length r) i None
        end in
      match h with
      | None => pret None
      | Some h =>
          let! rp := lexpect T_RPAREN in
          match rp with Some rp => emit_at rp h | None => pret tt end;!
          pret (Some h)
      end
  end.
Definition func_proto (f : nat) (decl : point -> P ret_) (impl rl : bool) (ty : dtype) (ptr : bool) (dc : point) : P (ret_ * option handle) :=
  let bad := let! r := fail_ in pret (r, None) in
  let! a := attributes f true false dc in
  if is_fail (fst a) then bad
  else
    (match a with (GOOD, Some h) => line (fst h) | _ => pret tt end);!
    let! r := ptype f rl ty dc in
    if negb (is_good r) then bad
    else
      let! a := attributes f true false dc in
      if is_fail (fst a) then bad
      else
        (if is_good (fst a) && negb impl then line dc else pret tt);!
        (if (if impl then y_return_impl Y else y_return_decl Y) then hardline dc else pret tt);!
        let! concat := group dc in
        let! ok := (if ptr then proto_ptr f concat
                    else
                      let! k := lexpect T_IDENT in
                      match k with Some k => emit k concat;! pret true | None => pret false end) in
        if negb ok then bad
        else
          let! h := proto_args f dc concat in
          match h with
          | None => bad
          | Some h =>
              let! kr := attempt is_good (
                let! i := bld (alloc [KGroup; KIndent (Z.of_nat iw)] dc) in
                hardline i;!
                decl i) in
              let! a := attempt (fun a => is_good (fst a)) (
                let! i := bld (alloc [KGroup; KIndent (Z.of_nat iw)] dc) in
                attributes f false true i) in
              let! r := good_ in
              pret (r, match a with (GOOD, Some h) => Some h | _ => Some h end)
          end.
(** parser-func.c:105-144 parser_func_decl, parser_func_decl1 *)
Definition func_decl (f : nat) (decl : point -> P ret_) (p : point) : P ret_ :=
  let! s := state in
  match func_peek (o_entry O) s with
  | FDecl ty ptr =>
      let! dc := group p in
      let! r := func_proto f decl false true ty ptr dc in
      match r with
      | (GOOD, Some h) =>
          let! k := lexpect T_SEMI in
          match k with Some k => emit_at k h | None => pret tt end;!
          good_
      | _ => fail_
      end
  | _ => none_
  end.

(** parser-decl.c:156-269 parser_decl2 *)
Definition decl_end (fl : dflags) (concat : point) (out : option handle) : P ret_ :=
  let! k := lexpect T_SEMI in
  match k with
  | Some k =>
      (if d_trim fl then let! l := toks in set_toks (many T_SEMI l) else pret tt);!
      match out with Some h => emit_at k h | None => emit k concat end
  | None => pret tt
  end;!
  good_.
Definition decl_type (f : nat) (decl : point -> P ret_) (fl : dflags) (iscpp : bool) (ty : dtype) (p : point) : P ret_ :=
  let! s := state in
  match func_peek (o_entry O) s with
  | FDecl _ _ => func_decl f decl p
  | FImpl _ _ => none_
  | FNone =>
      let! concat := group p in
      let! r := ptype f true ty concat in
      if negb (is_good r) then fail_
      else
        let! l := toks in
        if next_is T_SEMI l then decl_end fl concat None
        else
          let! r := (if is_decl s (y_end ty) T_STRUCT then decl_braces decl (y_struct Y) concat
                     else if is_decl s (y_end ty) T_UNION then decl_braces decl (y_union Y) concat
                     else if is_decl s (y_end ty) T_ENUM then
                       match if_pair T_LBRACE T_RBRACE l with
                       | None => fail_
                       | Some _ =>
                           (if y_enum Y then hardline concat else pret tt);!
                           let! r := pbraces f (Bflags true false false) iw concat concat in
                           if is_good r then pret GOOD else fail_
                       end
                     else pret GOOD) in
          if is_fail r then fail_
          else
            let! l := toks in
            match until T_SEMI l with
            | None => fail_
            | Some r =>
                let! i := decl_init f (negb (iscpp && next_is T_EQUAL l)) (length r) concat in
                if is_good (fst i) then decl_end fl concat (snd i) else fail_
            end
  end.
Definition decl2 (f : nat) (decl : point -> P ret_) (fl : dflags) (p : point) : P ret_ :=
  let! r := cdefs p in
  if is_good r then good_
  else
    let! r := (if d_root fl then decl_root p else none_) in
    if is_good r then good_
    else
      let! s := state in
      match type_at (o_entry O) false s with
      | Some ty => decl_type f decl fl false ty p
      | None =>
          match cpp_decl (d_root fl) (e_toks s) with
          | Some ty => decl_type f decl fl true ty p
          | None => cpp_x f p
          end
      end.
(** parser-decl.c:109-143, the loop of parser_decl1; whether there was a declaration *)
Fixpoint decls (f : nat) (d2 : point -> P ret_) (fl : dflags) (p : point) (any : bool) : P bool :=
  match f with
  | 0 => out_of_fuel
  | S f =>
      let! r := attempt is_good ((if any then hardline p else pret tt);! d2 p) in
      if is_good r then
        let! pv := back in
        let! l := toks in
        if d_break fl && (match pv with Some pv => o_line2 O pv | None => false end || match l with nx :: _ => o_cpp O nx | [] => false end) then pret true
        else decls f d2 fl p true
      else pret any
  end.
(** parser-decl.c:72-154 parser_decl, parser_decl1 *)
Fixpoint decl (f : nat) (fl : dflags) (p : point) : P ret_ :=
  match f with
  | 0 => out_of_fuel
  | S f =>
      let! any := attempt (fun any => any) (
        let! p := bld (alloc [] p) in
        let! any := decls f (decl2 f (decl f (Dflags false false false false)) fl) fl p false in
        (if any && d_line fl then hardline p else pret tt);!
        pret any) in
      if any then good_ else none_
  end.

(** ** Statements, functions and files *)
Variable labelled : token -> doc.
Variable openbsd : bool.
Variable expr_peek : list token -> list token -> option nat.
Variable loop_stmt : list token -> list token -> bool.
(** parser-stmt.c:114-116, 371, 125: the declarations and asm within statements. *)
Definition within (f : nat) (w : what) (p : point) : P ret_ :=
  match w with
  | WDecl trim => decl f (Dflags trim false false trim) p
  | WAsm => stmt_asm f p
  end.
Definition no_type (done l : list token) : bool := isSome (type_at (o_entry O) false (St done l false)).
Definition body (f : nat) (p : point) : P (ret_ * point) :=
  parser_block q D labelled iw cw openbsd S_ width tpeek braces no_type expr_peek loop_stmt (within f) p.
(** parser-func.c:175-191, 269-303 parser_func_impl, parser_func_impl1 *)
Definition func_impl (f : nat) (p : point) : P ret_ :=
  let! s := state in
  match func_peek (o_entry O) s with
  | FImpl ty ptr =>
      let! r := func_proto f (decl f (Dflags false false false false)) true true ty ptr p in
      if negb (is_good (fst r)) then fail_
      else
        let! l := toks in
        if negb (next_is T_LBRACE l) then fail_
        else
          (if y_func Y then hardline p else space p);!
          let! r := body f p in
          if negb (is_good (fst r)) then fail_
          else
            hardline p;!
            let! s := state in
            (if o_after O s then hardline p else pret tt);!
            good_
  | _ => none_
  end.
(** parser-extern.c:28-50, the loop of parser_extern; [n]: how many tokens follow the right
    brace; [None]: goes on *)
Fixpoint roots (f : nat) (root : point -> P ret_) (n : nat) (p : point) : P ret_ :=
  match f with
  | 0 => out_of_fuel
  | S f =>
      let! l := toks in
      if length l =? S n then pret GOOD
      else
        let! r := root p in
        match r with
        | GOOD => roots f root n p
        | NONE => pret GOOD
        | FAIL => pret FAIL
        end
  end.
(** parser-extern.c:10-55 parser_extern *)
Definition extern (f : nat) (root : point -> P ret_) (p : point) : P ret_ :=
  let! l := toks in
  match seq [T_EXTERN; T_STRING] l with
  | Some l' =>
      match if_pair T_LBRACE T_RBRACE l' with
      | Some r =>
          expect T_EXTERN p;!
          space p;!
          expect T_STRING p;!
          space p;!
          expect T_LBRACE p;!
          hardline p;!
          let! e := roots f root (length r) p in
          if is_good e then
            expect T_RBRACE p;!
            let! k := lif T_SEMI in
            emit_opt k p;!
            hardline p;!
            good_
          else pret e
      | None => none_
      end
  | None => none_
  end.
(** parser.c:197-215 parser_root *)
Definition or_none (r : ret_) (m : P ret_) : P ret_ := match r with NONE => m | _ => pret r end.
Fixpoint root_ (f : nat) (p : point) : P ret_ :=
  match f with
  | 0 => out_of_fuel
  | S f =>
      let! r := decl f (Dflags true true true true) p in
      let! r := or_none r (func_impl f p) in
      let! r := or_none r (extern f (root_ f) p) in
      let! r := or_none r (root_asm f p) in
      or_none r fail_
  end.
(** parser.c:123-195 parser_exec up to doc_exec(); without recovery. *)
Fixpoint exec (f : nat) (p : point) : P ret_ :=
  match f with
  | 0 => out_of_fuel
  | S f =>
      let! k := lif T_EOF in
      match k with
      | Some k => (match k_pre k with [] => pret tt | _ => emit k p end);! pret GOOD
      | None =>
          let! concat := bld (alloc [] p) in
          let! r := root_ f concat in
          if is_good r then exec f p else pret FAIL
      end
  end.
End Decl.
