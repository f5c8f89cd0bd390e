(** Model of cpp-include-guard.c.  A header is the prefixes of its first token and of its end of
    file token, which may be the same token, the branches between prefixes and the suffixes of
    the last token.  realpath(3) is a parameter.  Not modelled: TOKEN_FLAG_BRANCH of the parents of
    a removed branch, allocation failure, reference counts, locales other than C. *)
From Verif Require Import Base StrModel UtilModel.

(** token-defs.h: the kinds of prefixes that matter here. *)
Inductive kind := KIfndef | KDefine | KEndif | KComment | KCpp | KSpace | KOther.
Definition kind_eqb (a b : kind) : bool :=
  match a, b with
  | KIfndef, KIfndef | KDefine, KDefine | KEndif, KEndif | KComment, KComment | KCpp, KCpp | KSpace, KSpace | KOther, KOther => true
  | _, _ => false
  end.
Record gtok := GTok { g_id : nat; g_kind : kind; g_str : bytes }.
(** A suffix: TOKEN_SPACE, TOKEN_FLAG_OPTSPACE, TOKEN_FLAG_DISCARD. *)
Record suffix := Suffix { sf_space : bool; sf_opt : bool; sf_discard : bool }.
Record header := Header {
  h_some : bool;                    (** the lexer has tokens *)
  h_first : nat; h_eof : nat;       (** the first and the last token *)
  h_pre : nat -> list gtok;         (** the prefixes of a token *)
  h_nx : nat -> option gtok;        (** branch.nx of a prefix *)
  h_parent : nat -> nat;            (** branch.parent of a prefix *)
  h_prev : option (list suffix);    (** the suffixes of token_prev() of the last token *)
  h_next : nat                      (** identity of the next token allocated *)
}.

(** cpp-include-guard.c:27-49 is_guard_define; the byte read where [len] is 0 has no influence. *)
Fixpoint guard_words (fuel : nat) (s : bytes) (nwords : nat) : option nat :=
  match fuel with
  | O => None
  | S f =>
      match s with
      | [] => Some nwords
      | _ :: _ =>
          let n := span_len (fun c => negb (isspace c)) s in
          let nwords := nwords + (if 0 <? n then 1 else 0) in
          let s := skipn n s in
          if 2 <? nwords then Some nwords
          else guard_words f (skipn (span_len isspace s) s) nwords
      end
  end.
Definition is_guard_define (s : bytes) : bool := match guard_words (S (length s)) s 0 with Some n => n =? 2 | None => false end.

(** toupper(3) *)
Definition toupper (c : byte) : byte := if inrange "a"%char "z"%char c then ascii_of_nat (nat_of_ascii c - 32) else c.
(** cpp-include-guard.c:51-73 path_to_guard; [resolved] is the result of realpath(3). *)
Definition guard_byte (c : byte) : byte := if (c =c "."%char) || (c =c "/"%char) || (c =c "-"%char) then "_"%char else toupper c.
Definition path_to_guard (resolved : option bytes) (ncomponents : nat) : option bytes :=
  match resolved with
  | None => None
  | Some p => match path_slice p ncomponents with Some s => Some (List.map guard_byte s) | None => None end
  end.

(** cpp-include-guard.c:75-111 sense_include_guards *)
Inductive sensed := Stop | Crash | Replace (tks : option (gtok * gtok * gtok)).
Definition find_kind (k : kind) (l : list gtok) : option gtok := List.find (fun t => kind_eqb (g_kind t) k) l.
Fixpoint next_of (i : nat) (l : list gtok) : option gtok :=
  match l with
  | [] => None
  | t :: r => if g_id t =? i then hd_error r else next_of i r
  end.
Definition same (t : option gtok) (u : gtok) : bool := match t with Some t => g_id t =? g_id u | None => false end.
Definition sense (h : header) (cpp_ifndef cpp_define cpp_endif : bytes) : sensed :=
  if negb (h_some h) then Stop
  else
    match find_kind KIfndef (h_pre h (h_first h)) with
    | None => Replace None
    | Some i =>
        match find_kind KDefine (h_pre h (h_first h)) with
        | None => Replace None
        | Some d =>
            if negb (same (next_of (g_id i) (h_pre h (h_first h))) d) || negb (is_guard_define (g_str d)) then Replace None
            else
              match h_nx h (g_id i) with
              | None => Crash
              | Some e =>
                  if negb (kind_eqb (g_kind e) KEndif) || negb (h_parent h (g_id e) =? h_eof h) then Replace None
                  else if beq (g_str i) cpp_ifndef && beq (g_str d) cpp_define && beq (g_str e) cpp_endif then Stop
                  else Replace (Some (i, d, e))
              end
        end
    end.

(** token.c token lists; [None]: the token is not in the list. *)
Fixpoint list_remove (i : nat) (l : list gtok) : option (list gtok) :=
  match l with
  | [] => None
  | t :: r => if g_id t =? i then Some r else match list_remove i r with Some r => Some (t :: r) | None => None end
  end.
Fixpoint append_after (i : nat) (u : gtok) (l : list gtok) : option (list gtok) :=
  match l with
  | [] => None
  | t :: r => if g_id t =? i then Some (t :: u :: r) else match append_after i u r with Some r => Some (t :: r) | None => None end
  end.
Definition upd (f : nat -> list gtok) (i : nat) (l : list gtok) : nat -> list gtok := fun j => if j =? i then l else f j.
Definition set_pre (h : header) (p : nat) (l : list gtok) (next : nat) : header :=
  Header (h_some h) (h_first h) (h_eof h) (upd (h_pre h) p l) (h_nx h) (h_parent h) (h_prev h) next.
(** clang.c:437-482 clang_token_branch_unlink of a branch made of an if and an endif; nothing left to
    do for the endif afterwards. *)
Definition unlink (h : header) (i : nat) : header :=
  Header (h_some h) (h_first h) (h_eof h) (h_pre h) (fun j => if j =? i then None else h_nx h j) (h_parent h) (h_prev h) (h_next h).
(** token.c:292-305 token_has_verbatim_line *)
Definition verbatim2 (s : bytes) : bool := match rev s with a :: b :: _ => (a =c NL) && (b =c NL) | _ => false end.

(** cpp-include-guard.c:113-122 emit_cpp, 124-132 emit_line, 134-168 emit_ifndef *)
Fixpoint last_comment (l : list gtok) (c : option gtok) : option gtok :=
  match l with
  | [] => c
  | t :: r => if kind_eqb (g_kind t) KComment then last_comment r (Some t) else c
  end.
Definition line_tok (id : nat) : gtok := GTok id KSpace [NL].
Definition emit_ifndef (h : header) (p : nat) (cpp : bytes) : option (header * gtok) :=
  let i := GTok (h_next h) KCpp cpp in
  let l := h_pre h p in
  match last_comment l None with
  | None => Some (set_pre h p (i :: l) (S (h_next h)), i)
  | Some c =>
      if verbatim2 (g_str c) then
        match append_after (g_id c) i l with Some l => Some (set_pre h p l (S (h_next h)), i) | None => None end
      else
        let line := line_tok (S (h_next h)) in
        match append_after (g_id c) line l with
        | Some l => match append_after (g_id line) i l with Some l => Some (set_pre h p l (S (S (h_next h))), i) | None => None end
        | None => None
        end
  end.
(** token.c:61-81 token_trim *)
Definition trim (l : list suffix) : list suffix := List.map (fun s => if negb (sf_opt s) && sf_space s then Suffix true false true else s) l.
(** cpp-include-guard.c:170-187 ensure_line *)
Definition ensure_line (h : header) : header :=
  let e := h_eof h in
  let line := line_tok (h_next h) in
  match h_pre h e with
  | t :: r =>
      if verbatim2 (g_str (last r t)) then h else set_pre h e (h_pre h e ++ [line]) (S (h_next h))
  | [] =>
      let h := Header (h_some h) (h_first h) (h_eof h) (h_pre h) (h_nx h) (h_parent h) (option_map trim (h_prev h)) (h_next h) in
      set_pre h e [line] (S (h_next h))
  end.
(** cpp-include-guard.c:189-240 cpp_include_guard; [None]: undefined behaviour. *)
Definition ifndef_text (g : bytes) : bytes := s2b "#ifndef " ++ g ++ [NL].
Definition define_text (g : bytes) : bytes := s2b "#define " ++ g ++ [NL; NL].
Definition endif_text (g : bytes) : bytes := s2b "#endif /* !" ++ g ++ s2b " */" ++ [NL].
Definition bind {A B} (o : option A) (f : A -> option B) : option B := match o with Some a => f a | None => None end.
Definition remove_from (h : header) (p : nat) (t : gtok) : option header :=
  bind (list_remove (g_id t) (h_pre h p)) (fun l => Some (set_pre h p l (h_next h))).
(** lines 217-229: the #ifndef and the #define *)
Definition open_guard (h : header) (g : bytes) (tks : option (gtok * gtok * gtok)) : option header :=
  bind (match tks with Some (i, _, _) => remove_from (unlink h (g_id i)) (h_first h) i | None => Some h end) (fun h =>
  bind (emit_ifndef h (h_first h) (ifndef_text g)) (fun '(h, ifndef) =>
  bind (match tks with Some (_, d, _) => remove_from h (h_first h) d | None => Some h end) (fun h =>
  bind (append_after (g_id ifndef) (GTok (h_next h) KDefine (define_text g)) (h_pre h (h_first h))) (fun l =>
  Some (set_pre h (h_first h) l (S (h_next h))))))).
(** lines 231-239: the #endif *)
Definition close_guard (h : header) (g : bytes) (tks : option (gtok * gtok * gtok)) : option header :=
  bind (match tks with Some (_, _, e) => remove_from h (h_eof h) e | None => Some (ensure_line h) end) (fun h =>
  Some (set_pre h (h_eof h) (h_pre h (h_eof h) ++ [GTok (h_next h) KCpp (endif_text g)]) (S (h_next h)))).
Definition rewrite_guard (h : header) (g : bytes) (tks : option (gtok * gtok * gtok)) : option header :=
  bind (open_guard h g tks) (fun h => close_guard h g tks).
Definition cpp_include_guard (include_guards : nat) (path : bytes) (realpath : bytes -> option bytes) (h : header) : option header :=
  if include_guards =? 0 then Some h
  else if negb (is_path_header path) then Some h
  else
    match path_to_guard (realpath path) include_guards with
    | None => Some h
    | Some g =>
        match sense h (ifndef_text g) (define_text g) (endif_text g) with
        | Stop => Some h
        | Crash => None
        | Replace tks => rewrite_guard h g tks
        end
    end.
