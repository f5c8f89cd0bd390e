(** Properties C38, C39 and C40: growable buffers. *)
From Coq Require Import NArith ZifyBool ZifyNat ZifyN.
From Verif Require Import Base BufferModel BufferProofs.
Open Scope N_scope.

(** ** C38 *)
(** A run of operations, each with its own allocator behaviour and leftovers in new memory. *)
Fixpoint brun (ops : list (bool * (nat -> byte) * bop)) (b : buf) : option (list bres * buf) :=
  match ops with
  | [] => Some ([], b)
  | (ok, junk, o) :: ops =>
      match bexec ok junk o b with
      | None => None
      | Some (r, b) => match brun ops b with Some (rs, b) => Some (r :: rs, b) | None => None end
      end
  end.
(** The same on a byte string: every operation has its effect, or reports failure and has
    none; failing needs a reason. *)
Inductive sruns : list (bool * (nat -> byte) * bop) -> bytes -> list bres -> bytes -> Prop :=
| sr_nil : forall c, sruns [] c [] c
| sr_ok : forall ok junk o ops c rs c', printable o -> sruns ops (snd (sop o c)) rs c' -> sruns ((ok, junk, o) :: ops) c (fst (sop o c) :: rs) c'
| sr_fail : forall ok junk o ops c r rs c', failed r -> ok = false \/ 2 ^ 63 < lenN c + need o c \/ ~ printable o ->
    sruns ops c rs c' -> sruns ((ok, junk, o) :: ops) c (r :: rs) c'.

Theorem C38_run : forall init ok junk ops, init <= 2 ^ 63 ->
  (alloc ok junk init = Some None /\ ok = false) \/
  exists b, alloc ok junk init = Some (Some b) /\ content b = [] /\
    exists rs b', brun ops b = Some (rs, b') /\ sruns ops [] rs (content b').
Proof.
  intros init ok junk ops Hi. unfold alloc. destruct (reserve_spec ok junk _ init inv0) as [(b & -> & I & C & _)|(-> & [->|A])]; [right|left; auto|cbn in A; lia].
  exists b. split; auto. assert (C0 : content b = []) by (rewrite C; reflexivity). split; auto. rewrite <- C0. clear C C0. revert b I.
  induction ops as [|((ok', jk), o) ops IH]; intros b I.
  - exists [], b. split; auto. constructor.
  - cbn [brun]. destruct (bexec_spec ok' jk o b I) as (r & b' & -> & I' & H). destruct (IH b' I') as (rs & b'' & -> & R). exists (r :: rs), b''. split; auto. destruct H as [(H & P)|(F & C & W)].
    + replace r with (fst (sop o (content b))) by (rewrite <- H; auto). apply sr_ok; auto. rewrite <- H. auto.
    + apply sr_fail; auto. rewrite <- C. auto.
Qed.
(** With memory and room, an operation does not fail. *)
Theorem C38_effect : forall junk o b, inv b -> printable o -> lenN (content b) + need o (content b) <= 2 ^ 63 ->
  exists b', bexec true junk o b = Some (fst (sop o (content b)), b') /\ content b' = snd (sop o (content b)) /\ inv b'.
Proof.
  intros junk o b I P H. destruct (bexec_spec true junk o b I) as (r & b' & E & I' & [(S & _)|(_ & _ & [A|[A|A]])]); [|discriminate|lia|contradiction].
  exists b'. rewrite <- S. auto.
Qed.
Theorem C38_compare : forall a b, inv a -> inv b -> cmp a b = false <-> content a = content b.
Proof. exact cmp_spec. Qed.
Definition j0 : nat -> byte := fun _ => "?"%char.
Example C38_ex : match alloc true j0 3 with
  | Some (Some b) =>
    match brun [(true, j0, BPuts (Some (s2b "hello world"))); (true, j0, BPrintf (Some (s2b " 12345"))); (false, j0, BPuts (Some (repeat "x"%char 20))); (true, j0, BPutc "!"%char); (true, j0, BPop 3); (true, j0, BPop 0); (true, j0, BStr); (true, j0, BPutc "z"%char)] b with
    | Some (rs, b) => rs = [Ret false; Ret false; Ret true; Ret false; Count 3; Count 0; Str (Some (s2b "hello world 123" ++ [NUL])); Ret false] /\ content b = s2b "z" /\ b_siz b = 16
    | None => False end
  | _ => False end.
Proof. vm_compute. auto. Qed.
Example C38_ex_inv : inv (mkbuf (repeat NUL 16) 16 5).
Proof. constructor; cbn; auto; try lia. right. exists 4. split; auto; lia. Qed.
Print Assumptions C38_run.
Print Assumptions C38_effect.
Print Assumptions C38_compare.

(** ** C39 *)
(** For every pattern of short reads, read errors and allocation failures: either all of the
    content has been appended, or an error is reported, with a reason and a part of it. *)
Theorem C39_complete : forall junk pat src b, inv b -> b_len b < b_siz b ->
  exists e b', read_fd (S (length src)) junk pat src b = Some (e, b') /\ inv b' /\
    (e = false -> content b' = content b ++ src) /\
    (e = true -> (exists got rest, src = got ++ rest /\ content b' = content b ++ got) /\
       ((exists st, In st pat /\ (r_read st = None \/ r_ok st = false)) \/ 2 ^ 63 < lenN (content b') + b_siz b' / 2)).
Proof. intros. apply read_spec; auto. Qed.
(** As used: a new buffer of 8192 bytes. *)
Theorem C39_new : forall junk pat src, (forall st, In st pat -> r_read st <> None /\ r_ok st = true) -> lenN src < 2 ^ 61 ->
  exists b b', alloc true junk 8192 = Some (Some b) /\ read_fd (S (length src)) junk pat src b = Some (false, b') /\ content b' = src.
Proof.
  intros junk pat src Hp Hs. destruct (alloc_spec junk 8192) as (b & A & I & C & S); [lia|]. exists b.
  pose proof (len_content b I) as L. rewrite C in L. cbn in L.
  destruct (read_spec (Datatypes.S (length src)) junk pat src b I) as (e & b' & R & I' & R1 & R2); [lia|lia|]. exists b'. split; auto. rewrite R.
  destruct e; [|split; auto; rewrite R1 by auto; rewrite C; auto].
  exfalso. destruct (R2 eq_refl) as ((got & rest & G1 & G2) & [(st & P & [Q|Q])|R3]).
  - destruct (Hp st P); contradiction.
  - destruct (Hp st P) as (_ & K). congruence.
  - rewrite C in G2. assert (lenN (content b') <= lenN src) by (rewrite G2, G1; cbn [app]; rewrite lenN_app; lia).
    pose proof (inv_siz b' I'). assert (b_siz b' / 2 <= 2 ^ 62). { apply N.div_le_upper_bound; [lia|]. change (2 * 2 ^ 62) with (2 ^ 63). auto. }
    assert (2 ^ 61 + 2 ^ 62 < 2 ^ 63) by reflexivity. lia.
Qed.
(** Into a full buffer nothing is read, and that looks like the end of the file. *)
Theorem C39_full_refuted : exists b src, inv b /\ src <> [] /\ exists b', read_fd 10 j0 [] src b = Some (false, b') /\ content b' = content b.
Proof.
  exists (mkbuf (repeat "a"%char 16) 16 16), (s2b "x"). split; [constructor; cbn; auto; try lia; right; exists 4; split; auto; lia|]. split; [discriminate|].
  eexists. split; [reflexivity|]. reflexivity.
Qed.
Example C39_ex : match alloc true j0 1 with
  | Some (Some b) => match read_fd 100 j0 [{| r_read := Some 2; r_ok := true |}; {| r_read := Some 0; r_ok := true |}] (s2b "The quick brown fox jumps over the lazy dog") b with
    | Some (e, b) => e = false /\ content b = s2b "The quick brown fox jumps over the lazy dog" /\ b_siz b = 128 | None => False end
  | _ => False end.
Proof. vm_compute. auto. Qed.
Print Assumptions C39_complete.
Print Assumptions C39_new.
Print Assumptions C39_full_refuted.

(** ** C40 *)
(** Iterating over a buffer gives its lines, each followed by NUL, and leaves the iterator as
    it was at first. *)
Theorem C40_lines : forall junk bf, inv bf -> b_len bf < 2 ^ 63 ->
  exists ls, getlines (S (length (content bf))) junk bf g0 = Some (map (fun l => l ++ [NUL]) ls, g0) /\ lines (content bf) ls /\
    Forall (fun l => ~ In NL l) ls /\
    (concat (map (fun l => l ++ [NL]) ls) = content bf \/
     (concat (map (fun l => l ++ [NL]) ls) = content bf ++ [NL] /\ content bf <> [] /\ hd_error (rev (content bf)) <> Some NL)).
Proof.
  intros junk bf I H. destruct (getlines_spec (S (length (content bf))) junk bf 0 (content bf) None I H) as (ls & E & L); cbn; auto; try lia.
  exists ls. split; auto. split; auto. apply lines_join; auto.
Qed.
(** Without memory a line is silently missing or stale. *)
Theorem C40_nomem_refuted : exists bf g r g', inv bf /\ gbuf_ok g /\ getline_next false j0 bf g = Some (Some r, g') /\ g_off g = 0 /\ r <> content bf ++ [NUL] /\ ~ In NL (content bf).
Proof.
  exists (mkbuf (repeat "a"%char 32) 32 20), {| g_buf := Some (mkbuf (repeat "b"%char 16) 16 3); g_off := 0 |}. eexists. eexists.
  split; [constructor; cbn; auto; try lia; right; exists 5; split; auto; lia|]. split; [constructor; cbn; auto; try lia; right; exists 4; split; auto; lia|].
  split; [reflexivity|]. split; auto. split; [discriminate|]. vm_compute. intuition discriminate.
Qed.
Example C40_ex : match alloc true j0 1 with
  | Some (Some b) => match puts true j0 (Some (s2b "one" ++ [NL; NL] ++ s2b "three" ++ [NL] ++ s2b "4")) b with
    | Some (_, b) => getlines 20 j0 b g0 = Some ([s2b "one" ++ [NUL]; [NUL]; s2b "three" ++ [NUL]; s2b "4" ++ [NUL]], g0) | None => False end
  | _ => False end.
Proof. vm_compute. auto. Qed.
Print Assumptions C40_lines.
Print Assumptions C40_nomem_refuted.
