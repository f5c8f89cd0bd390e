(** Shared vocabulary: bytes, byte strings, slices and the <ctype.h> classes the
    modelled C code uses (the "C" locale). *)
From Coq Require Export Ascii String List Bool Arith NArith ZArith Lia.
From Coq Require Import ZifyBool ZifyNat ZifyN.
Export ListNotations.

Notation byte := ascii.
Notation bytes := (list ascii).

(** String literals as byte lists (used for tables and examples only). *)
Definition s2b (s : string) : bytes := list_ascii_of_string s.

Definition NUL : byte := Ascii.zero.
Definition TAB : byte := "009"%char.
Definition NL  : byte := "010"%char.
Definition VT  : byte := "011"%char.
Definition FF  : byte := "012"%char.
Definition CR  : byte := "013"%char.
Definition SP  : byte := " "%char.
Definition DQ  : byte := """"%char.
Definition SQ  : byte := "'"%char.
Definition BSL : byte := "\"%char.

Notation "a =c b" := (Ascii.eqb a b) (at level 70).

Definition code (c : byte) : N := N_of_ascii c.

(** [lo <= c <= hi] on unsigned byte values. *)
Definition inrange (lo hi c : byte) : bool :=
  (code lo <=? code c)%N && (code c <=? code hi)%N.

(** <ctype.h> in the "C" locale. *)
Definition isdigit (c : byte) : bool := inrange "0" "9" c.
Definition islower (c : byte) : bool := inrange "a" "z" c.
Definition isupper (c : byte) : bool := inrange "A" "Z" c.
Definition isalpha (c : byte) : bool := islower c || isupper c.
Definition isalnum (c : byte) : bool := isalpha c || isdigit c.
Definition isspace (c : byte) : bool := (c =c SP) || inrange TAB CR c.
Definition isxdigit (c : byte) : bool :=
  isdigit c || inrange "a" "f" c || inrange "A" "F" c.
Definition isprint (c : byte) : bool := inrange SP "~" c.
Definition tolower (c : byte) : byte :=
  if isupper c then ascii_of_N (code c + 32) else c.
Definition toupper (c : byte) : byte :=
  if islower c then ascii_of_N (code c - 32) else c.

(** Byte string equality. *)
Fixpoint beq (a b : bytes) : bool :=
  match a, b with
  | [], [] => true
  | x :: a', y :: b' => (x =c y) && beq a' b'
  | _, _ => false
  end.

(** [slice l a b] is the sub-list of positions [a, b). *)
Definition slice {A} (l : list A) (a b : nat) : list A := firstn (b - a) (skipn a l).

Fixpoint count_occ_b (c : byte) (l : bytes) : nat :=
  match l with
  | [] => 0
  | x :: r => (if x =c c then 1 else 0) + count_occ_b c r
  end.

(** Longest prefix satisfying a predicate. *)
Fixpoint span_len {A} (p : A -> bool) (l : list A) : nat :=
  match l with
  | [] => 0
  | x :: r => if p x then S (span_len p r) else 0
  end.

(** [starts_with pre l]: [pre] is a prefix of [l]. *)
Fixpoint starts_with (pre l : bytes) : bool :=
  match pre, l with
  | [], _ => true
  | x :: p, y :: r => (x =c y) && starts_with p r
  | _ :: _, [] => false
  end.

Ltac inv H := inversion H; subst; clear H.

Lemma eqb_true : forall a b, (a =c b) = true <-> a = b.
Proof. intros; apply Ascii.eqb_eq. Qed.

Lemma eqb_false : forall a b, (a =c b) = false <-> a <> b.
Proof. intros; apply Ascii.eqb_neq. Qed.

Lemma eqb_refl : forall a, (a =c a) = true.
Proof. intros; apply Ascii.eqb_refl. Qed.

Lemma beq_eq : forall a b, beq a b = true <-> a = b.
Proof.
  induction a as [|x a IH]; destruct b as [|y b]; simpl; split; try easy.
  - rewrite andb_true_iff, eqb_true, IH. intros [-> ->]; auto.
  - intros H; inv H. rewrite eqb_refl; simpl; apply IH; auto.
Qed.

Lemma beq_refl : forall a, beq a a = true.
Proof. intros; apply beq_eq; auto. Qed.

Lemma starts_with_spec : forall p l, starts_with p l = true <-> exists r, l = p ++ r.
Proof.
  induction p as [|x p IH]; simpl; intros l.
  - split; eauto.
  - destruct l as [|y l].
    + split; [easy|intros [r H]; discriminate].
    + rewrite andb_true_iff, eqb_true, IH. split.
      * intros [-> [r ->]]; eauto.
      * intros [r H]; inv H; eauto.
Qed.

Section Slices.
Context {A : Type}.
Implicit Types l : list A.

Lemma slice_nil : forall l a, slice l a a = [].
Proof. intros; unfold slice; rewrite Nat.sub_diag; auto. Qed.

Lemma skipn_skipn' : forall l a b, skipn a (skipn b l) = skipn (b + a) l.
Proof.
  intros l a b; revert l; induction b as [|b IH]; simpl; intros l; auto.
  destruct l; [rewrite skipn_nil; auto|auto].
Qed.

Lemma slice_app : forall l a b c, a <= b -> b <= c -> slice l a b ++ slice l b c = slice l a c.
Proof.
  intros l a b c H1 H2. unfold slice.
  replace (c - a) with ((b - a) + (c - b)) by lia.
  rewrite <- (firstn_skipn (b - a) (firstn ((b - a) + (c - b)) (skipn a l))).
  f_equal.
  - rewrite firstn_firstn. f_equal; lia.
  - rewrite skipn_firstn_comm. rewrite skipn_skipn'.
    f_equal; [lia|f_equal; lia].
Qed.

Lemma slice_all : forall l, slice l 0 (length l) = l.
Proof. intros; unfold slice; simpl; rewrite Nat.sub_0_r; apply firstn_all. Qed.

Lemma slice_length : forall l a b, b <= length l -> length (slice l a b) = b - a.
Proof. intros; unfold slice; rewrite firstn_length, skipn_length; lia. Qed.

Lemma nth_error_skipn : forall l a, nth_error l a = hd_error (skipn a l).
Proof.
  intros l a; revert l; induction a; destruct l; simpl; auto.
Qed.

Lemma skipn_cons : forall l a x, nth_error l a = Some x -> skipn a l = x :: skipn (S a) l.
Proof.
  intros l a; revert l; induction a; destruct l; simpl; intros; try discriminate.
  - congruence.
  - rewrite (IHa _ _ H). auto.
Qed.

Lemma nth_error_skipn_add : forall l a i, nth_error (skipn a l) i = nth_error l (a + i).
Proof.
  intros l a; revert l; induction a; simpl; intros; auto.
  destruct l; auto. destruct i; auto.
Qed.

Lemma firstn_S_nth : forall l n x, nth_error l n = Some x -> firstn (S n) l = firstn n l ++ [x].
Proof.
  induction l; destruct n; simpl; intros; try discriminate.
  - congruence.
  - f_equal. apply IHl; auto.
Qed.

Lemma slice_S : forall l a b x, a <= b -> nth_error l b = Some x -> slice l a (S b) = slice l a b ++ [x].
Proof.
  intros. unfold slice. replace (S b - a) with (S (b - a)) by lia.
  apply firstn_S_nth. rewrite nth_error_skipn_add. replace (a + (b - a)) with b by lia. auto.
Qed.

Lemma slice_cons : forall l a b x, a < b -> nth_error l a = Some x -> slice l a b = x :: slice l (S a) b.
Proof.
  intros. unfold slice. rewrite (skipn_cons _ _ _ H0).
  replace (b - a) with (S (b - S a)) by lia. auto.
Qed.

Lemma span_len_le : forall (p : A -> bool) l, span_len p l <= length l.
Proof. induction l; simpl; auto. destruct (p a); simpl; lia. Qed.

Lemma span_len_all : forall (p : A -> bool) l, Forall (fun x => p x = true) (firstn (span_len p l) l).
Proof. induction l; simpl; auto. destruct (p a) eqn:E; simpl; auto. Qed.

Lemma span_len_stop : forall (p : A -> bool) l x,
  nth_error l (span_len p l) = Some x -> p x = false.
Proof.
  induction l; simpl; intros; try discriminate.
  destruct (p a) eqn:E; simpl in *; eauto. congruence.
Qed.
End Slices.
