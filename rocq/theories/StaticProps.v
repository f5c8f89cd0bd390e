(** static first, int spelled out: C34. *)
From Coq Require Import Permutation.
From Verif Require Import Base TokenModel StreamModel StreamProofs TokListModel TokListProofs StreamProps TokListProps StaticModel.

(** ** Specification. *)
(** No comment and no preprocessor directive is attached to the token. *)
Definition unattached (x : lex) (t : id) : Prop :=
  (forall p, In p (n_pre (x_heap x t)) -> tyof x p <> T_COMMENT /\ flagged F_CPP x p = false) /\
  (forall s, In s (n_suf (x_heap x t)) -> tyof x s <> T_COMMENT).
(** The first static of the declaration, moved to the front. *)
Definition static_moved (x : lex) (decl decl' : list id) : Prop :=
  exists a st b, decl = a ++ st :: b /\ a <> [] /\ tyof x st = T_STATIC /\ Forall (fun t => tyof x t <> T_STATIC) a /\ unattached x st /\ decl' = st :: a ++ b.
Definition static_kept (x : lex) (decl : list id) : Prop :=
  Forall (fun t => tyof x t <> T_STATIC) decl \/
  (exists st b, decl = st :: b /\ tyof x st = T_STATIC) \/
  (exists a st b, decl = a ++ st :: b /\ tyof x st = T_STATIC /\ Forall (fun t => tyof x t <> T_STATIC) a /\ ~ unattached x st).

(** ** Proofs. *)
Lemma moveable_spec : forall x t, is_moveable (x_heap x) t = true <-> unattached x t.
Proof.
  intros x t. unfold is_moveable, unattached. rewrite andb_true_iff, forallb_forall, negb_true_iff. split.
  - intros [A B]. split.
    + intros p Hp. specialize (A p Hp). apply negb_true_iff, orb_false_iff in A. destruct A as [A1 A2]. split; [apply ttype_eqb_neq; exact A1|exact A2].
    + intros s Hs K. assert (Q : existsb (fun s => ttype_eqb (n_type (x_heap x s)) T_COMMENT) (n_suf (x_heap x t)) = true); [|congruence]. apply existsb_exists. exists s. split; [exact Hs|]. apply ttype_eqb_eq. exact K.
  - intros [A B]. split.
    + intros p Hp. destruct (A p Hp) as [A1 A2]. apply negb_true_iff, orb_false_iff. split; [apply ttype_eqb_neq; exact A1|exact A2].
    + destruct (existsb _ (n_suf (x_heap x t))) eqn:E; [|reflexivity]. apply existsb_exists in E. destruct E as (s & Hs & K). apply ttype_eqb_eq in K. destruct (B s Hs K).
Qed.
Lemma last_app_cons : forall (a b : list id) t d, last (a ++ t :: b) d = last (t :: b) d.
Proof. induction a as [|u a IH]; intros b t d; [reflexivity|]. cbn [app]. rewrite <- (IH b t d). destruct (a ++ t :: b) eqn:E; [destruct a; discriminate|reflexivity]. Qed.
Lemma last_default : forall (l : list id) t d e, last (t :: l) d = last (t :: l) e.
Proof. induction l as [|u l IH]; intros t d e; [reflexivity|]. apply IH. Qed.
Lemma last_in : forall (d : list id) t e, In (last (t :: d) e) (t :: d).
Proof. induction d as [|u d IH]; intros t e; [left; reflexivity|]. right. apply IH. Qed.
Lemma find_static_spec : forall x, NoDup (x_toks x) -> forall d p tk fin q, x_toks x = p ++ (tk :: d) ++ q -> last (tk :: d) tk = fin -> forall fuel, length d < fuel ->
  (exists a st b, tk :: d = a ++ st :: b /\ tyof x st = T_STATIC /\ Forall (fun t => tyof x t <> T_STATIC) a /\ find_static_token fuel (x_toks x) (x_heap x) tk fin = Some (Some st)) \/
  (Forall (fun t => tyof x t <> T_STATIC) (tk :: d) /\ find_static_token fuel (x_toks x) (x_heap x) tk fin = Some None).
Proof.
  intros x ND. induction d as [|t d IH]; intros p tk fin q Et L fuel F; (destruct fuel as [|fuel]; [cbn in F; lia|]); cbn [find_static_token]; change (n_type (x_heap x tk)) with (tyof x tk); destruct (ttype_eqb (tyof x tk) T_STATIC) eqn:T.
  - left. apply ttype_eqb_eq in T. exists [], tk, []. auto.
  - right. cbn in L. subst. rewrite Nat.eqb_refl. apply ttype_eqb_neq in T. auto.
  - left. apply ttype_eqb_eq in T. exists [], tk, (t :: d). auto.
  - assert (ND' := ND). rewrite Et in ND'. cbn [app] in ND'. destruct (nodup_split _ _ _ ND') as [N1 N2]. assert (NE : tk =? fin = false). { apply Nat.eqb_neq. intros ->. apply N2. rewrite app_comm_cons. apply in_or_app. left. assert (Q := last_in d t fin). change (last (fin :: t :: d) fin) with (last (t :: d) fin) in L. rewrite L in Q. exact Q. }
    rewrite NE. assert (NX : next_of (x_toks x) tk = Some t) by (rewrite Et; cbn [app]; rewrite next_split by exact N1; reflexivity). rewrite NX.
    assert (L' : last (t :: d) t = fin). { rewrite <- L. change (last (tk :: t :: d) tk) with (last (t :: d) tk). apply last_default. }
    destruct (IH (p ++ [tk]) t fin q ltac:(rewrite <- app_assoc; exact Et) L' fuel ltac:(cbn in F; lia)) as [(a & st & b & E1 & E2 & E3 & E4)|(E1 & E2)]; apply ttype_eqb_neq in T.
    + left. exists (tk :: a), st, b. rewrite E1. auto.
    + right. auto.
Qed.
Lemma whole_move : forall h g a mv before b, n_pre (g mv) = n_pre (h before) ++ n_pre (h mv) -> n_pre (g before) = [] -> Permutation (n_suf (g before) ++ n_suf (g mv)) (n_suf (h before) ++ n_suf (h mv)) ->
  (forall t, In t (a ++ b) -> n_pre (g t) = n_pre (h t) /\ n_suf (g t) = n_suf (h t)) -> forall l l', Permutation l (mv :: before :: a ++ b) -> Permutation l' (mv :: before :: a ++ b) -> Permutation (whole g l) (whole h l').
Proof.
  intros h g a mv before b H1 H2 H3 H4 l l' P1 P2. unfold whole. rewrite (Permutation_flat_map _ P1), (Permutation_flat_map _ P2). fold (whole g (mv :: before :: a ++ b)). fold (whole h (mv :: before :: a ++ b)). rewrite !whole_cons, (whole_ext h g (a ++ b) H4), H1, H2. cbn [app].
  set (A := n_pre (h before)). set (B := n_pre (h mv)). set (W := whole h (a ++ b)).
  transitivity (mv :: before :: A ++ B ++ (n_suf (g before) ++ n_suf (g mv)) ++ W); [permc|]. rewrite H3. permc.
Qed.

(** Rewriting keeps the tokens of the declaration and their order, but for the first static
    which is moved to the front; all texts, comments and directives are kept. *)
Theorem C34_static : forall E p beg d q x, wfl E x -> x_toks x = p ++ (beg :: d) ++ q ->
  exists fin' y decl', simple_static beg (last (beg :: d) beg) x = Some (Some fin', y) /\ x_toks y = p ++ decl' ++ q /\
    (static_moved x (beg :: d) decl' \/ static_kept x (beg :: d) /\ y = x /\ decl' = beg :: d) /\ last decl' beg = fin' /\
    (forall i, n_type (x_heap y i) = n_type (x_heap x i) /\ n_str (x_heap y i) = n_str (x_heap x i)) /\
    Permutation (whole (x_heap y) (x_toks y)) (whole (x_heap x) (x_toks x)).
Proof.
  intros E p beg d q x W Et. assert (ND := whole_toks _ _ (wl_nodup _ _ W)). unfold simple_static.
  assert (ND' := ND). rewrite Et in ND'. 
  destruct (find_static_spec x ND d p beg (last (beg :: d) beg) q Et eq_refl (length (x_toks x))) as [(a & st & b & Ed & T & Fa & ->)|(Fa & ->)].
  { rewrite Et, !app_length. cbn. lia. }
  2:{ exists (last (beg :: d) beg), x, (beg :: d). repeat split; auto. right. split; [left; exact Fa|auto]. }
  destruct (st =? beg) eqn:EB; cbn [orb].
  { exists (last (beg :: d) beg), x, (beg :: d). repeat split; auto. right. split; [|auto]. right. left. apply Nat.eqb_eq in EB. subst st. exists beg, d. auto. }
  apply Nat.eqb_neq in EB. destruct (is_moveable (x_heap x) st) eqn:EM; cbn [negb].
  2:{ exists (last (beg :: d) beg), x, (beg :: d). repeat split; auto. right. split; [|auto]. right. right. exists a, st, b. repeat split; auto. intros K. apply moveable_spec in K. congruence. }
  apply moveable_spec in EM. destruct a as [|u a]; [injection Ed as <- <-; congruence|]. injection Ed as <- Ed.
  assert (Es : x_toks x = (p ++ beg :: a) ++ st :: (b ++ q)) by (rewrite Et, Ed, <- !app_assoc; cbn [app]; rewrite <- app_assoc; reflexivity).
  assert (Es2 : (p ++ beg :: a) ++ b ++ q = p ++ beg :: (a ++ b ++ q)) by (rewrite <- app_assoc; reflexivity).
  destruct (C14_move_before E beg st x _ _ _ _ W Es Es2) as (y & M & Ty & PT & P1 & P2 & P3 & P4 & P5 & _). rewrite M.
  assert (FIN : (if st =? last (beg :: d) beg then prev_of (x_toks x) (last (beg :: d) beg) else Some (last (beg :: d) beg)) = Some (last (st :: beg :: a ++ b) beg)).
  { rewrite Ed. change (last (beg :: a ++ st :: b) beg) with (last ((beg :: a) ++ st :: b) beg). rewrite last_app_cons. destruct b as [|v b] using rev_ind.
    - change (last [st] beg) with st. rewrite Nat.eqb_refl, Es. unfold prev_of. rewrite Es in ND. destruct (nodup_split _ _ _ ND) as [N1 _]. rewrite prev_from_split by exact N1. rewrite app_nil_r. destruct a as [|u a] using rev_ind; [rewrite rev_app_distr; reflexivity|]. clear IHa. rewrite app_comm_cons, app_assoc, rev_app_distr. cbn [rev app]. change (st :: beg :: a ++ [u]) with ((st :: beg :: a) ++ [u]). rewrite last_last. reflexivity.
    - clear IHb. change (st :: b ++ [v]) with ((st :: b) ++ [v]). change (st :: beg :: a ++ b ++ [v]) with ((st :: beg :: a) ++ b ++ [v]). rewrite app_assoc, !last_last. destruct (Nat.eqb_spec st v); [|reflexivity]. exfalso. subst. rewrite Es in ND. destruct (nodup_split _ _ _ ND) as [_ N2]. apply N2. apply in_or_app. left. apply in_or_app. right. left. reflexivity. }
  rewrite FIN. exists (last (st :: beg :: a ++ b) beg), y, (st :: beg :: a ++ b). split; [reflexivity|]. split; [rewrite Ty; cbn [app]; rewrite <- app_assoc; reflexivity|]. split; [left; exists (beg :: a), st, b; split; [rewrite Ed; reflexivity|]; split; [discriminate|]; split; [exact T|]; split; [exact Fa|]; split; [exact EM|reflexivity]|]. split; [reflexivity|]. split; [exact P5|].
  assert (NDs := ND). rewrite Es in NDs. destruct (nodup_split _ _ _ NDs) as [N1 N2]. assert (NDb := ND'). cbn [app] in NDb. destruct (nodup_split _ _ _ NDb) as [N3 N4].
  apply (whole_move (x_heap x) (x_heap y) p st beg (a ++ b ++ q) P1 P2 P3).
  - intros t Ht. apply P4.
    + intros ->. apply in_app_or in Ht. destruct Ht as [Ht|Ht]; [exact (N3 Ht)|]. apply N4. rewrite Ed. rewrite <- app_assoc. apply in_app_or in Ht. apply in_or_app. destruct Ht as [Ht|Ht]; [left; exact Ht|right; right; exact Ht].
    + intros ->. apply in_app_or in Ht. destruct Ht as [Ht|Ht]; [apply N1; apply in_or_app; left; exact Ht|]. apply in_app_or in Ht. destruct Ht as [Ht|Ht]; [apply N1; apply in_or_app; right; right; exact Ht|exact (N2 Ht)].
  - rewrite Ty. permc.
  - rewrite Es. permc.
Qed.

(** A lone signed or unsigned is followed by a new token int; nothing else changes. *)
Theorem C34_implicit_int : forall p beg fin q x, NoDup (x_toks x) -> x_toks x = p ++ fin :: q -> (forall t, In t (x_toks x) -> t < x_next x) ->
  exists t y, simple_implicit_int beg fin x = Some (t, y) /\
    ((beg = fin /\ (tyof x beg = T_UNSIGNED \/ tyof x beg = T_SIGNED) /\ unattached x beg /\
      x_toks y = p ++ fin :: t :: q /\ ~ In t (x_toks x) /\ tyof y t = T_INT /\ n_str (x_heap y t) = s2b "int" /\ n_pre (x_heap y t) = [] /\ n_suf (x_heap y t) = [] /\ (forall i, i <> t -> x_heap y i = x_heap x i)) \/
     (~ (beg = fin /\ (tyof x beg = T_UNSIGNED \/ tyof x beg = T_SIGNED) /\ unattached x beg) /\ t = fin /\ y = x)).
Proof.
  intros p beg fin q x ND Et Lt. unfold simple_implicit_int, is_implicit_int.
  assert (KEY : negb ((beg =? fin) && ttype_eqb (tyof x beg) T_UNSIGNED && is_moveable (x_heap x) beg) && negb ((beg =? fin) && ttype_eqb (tyof x beg) T_SIGNED && is_moveable (x_heap x) beg) = false <-> (beg = fin /\ (tyof x beg = T_UNSIGNED \/ tyof x beg = T_SIGNED) /\ unattached x beg)).
  { rewrite andb_false_iff, !negb_false_iff, !andb_true_iff, !Nat.eqb_eq, !ttype_eqb_eq, moveable_spec. tauto. }
  destruct (negb _ && negb _) eqn:EN.
  - exists fin, x. split; [reflexivity|]. right. split; [|auto]. intros K. apply KEY in K. discriminate.
  - apply proj1 in KEY. destruct (KEY eq_refl) as (K1 & K2 & K3). destruct (C14_insert_after fin int_token x p q ND Et Lt) as (t & y & H1 & H2 & H3 & H4 & H5 & H6 & H7 & H8 & _). exists t, y. split; [exact H1|]. left. split; [exact K1|]. split; [exact K2|]. split; [exact K3|]. split; [exact H2|]. split; [exact H3|]. split; [exact H5|]. split; [exact H6|]. split; [exact H7|]. split; [exact H8|exact H4].
Qed.

(** ** Examples *)
Definition ex_decl (l : list (ttype * string)) : lex := stream (map (fun '(ty, s) => Node ty 0 1 1 (s2b s) 1 true [] [] None None None) l) (seq 0 (length l)).
Definition ex_static : lex := ex_decl [(T_SEMI, ";"); (T_CONST, "const"); (T_INT, "int"); (T_STATIC, "static"); (T_IDENT, "x"); (T_EOF, "")]%string.
Example ex_static_wfl : wfl (fun _ => 0) ex_static.
Proof.
  constructor.
  - vm_compute. repeat constructor; simpl; intuition lia.
  - exists [0;1;2;3;4], 5. split; [reflexivity|]. split; [reflexivity|]. repeat constructor; vm_compute; discriminate.
  - intros t d Ht Hd. change (x_toks ex_static) with [0;1;2;3;4;5] in Ht. destruct Ht as [<-|[<-|[<-|[<-|[<-|[<-|[]]]]]]]; destruct Hd.
  - intros t Ht. change (x_toks ex_static) with [0;1;2;3;4;5] in Ht. destruct Ht as [<-|[<-|[<-|[<-|[<-|[<-|[]]]]]]]; reflexivity.
Qed.
Example ex_static_run : match simple_static 1 3 ex_static with Some (Some f, y) => f = 2 /\ x_toks y = [0;3;1;2;4;5] | _ => False end.
Proof. vm_compute. auto. Qed.
Definition ex_unsigned : lex := ex_decl [(T_UNSIGNED, "unsigned"); (T_IDENT, "x"); (T_EOF, "")]%string.
Example ex_unsigned_run : match simple_implicit_int 0 0 ex_unsigned with Some (f, y) => x_toks y = [0;f;1;2] /\ n_str (x_heap y f) = s2b "int" | _ => False end.
Proof. vm_compute. auto. Qed.

Print Assumptions C34_static.
Print Assumptions C34_implicit_int.
