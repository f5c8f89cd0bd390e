(** Model of the documents of tokens as used for whole files. *)
From Verif Require Import Base TokenModel LexModel DocModel.

Section Whole.
Variable inp : bytes.
Notation bytes_of t := (text_bytes inp (t_str t)).
(** doc.c: doc_token() with DOC_VERBATIM.  Simplified: left out if there is no text; the
    tokens read have some (C63_documents). *)
Definition verb (t : tok) : list doc := match bytes_of t with [] => [] | s => [Verbatim s] end.
(** parser.c:348-355, the loop over suffixes. *)
Definition suffix_doc (t : tok) : list doc :=
  if has_flag (t_flags t) F_DISCARD then [] else if has_flag (t_flags t) F_OPTLINE then [Optline] else verb t.
(** parser.c:323-363 parser_doc_token_impl.  Not modelled here: clang-format regions and
    branches, see ParserModel; C63_documents shows that it is the same without them. *)
Definition tokdoc (k : token) : doc := Concat (flat_map verb (k_pre k) ++ Literal (bytes_of (k_tok k)) :: flat_map suffix_doc (k_suf k)).
End Whole.
