(** C28, C29: chunks of a diff. *)
From Coq Require Import NArith ZArith Lia.
From Verif Require Import Base DiffModel.

(** ** C29 *)
Definition covers (du : chunk) (n : N) : Prop := (du_beg du <= n <= du_end du)%N.
Lemma get_chunk_spec : forall cs i n, match get_chunk_from i cs n with
  | Some k => exists j du, k = i + j /\ nth_error cs j = Some du /\ covers du n /\ forall j' du', j' < j -> nth_error cs j' = Some du' -> ~ covers du' n
  | None => forall du, In du cs -> ~ covers du n end.
Proof.
  induction cs as [|du r IH]; intros i n; cbn [get_chunk_from]; [intros du []|].
  destruct (N.leb_spec (du_beg du) n); destruct (N.leb_spec n (du_end du)); cbn [andb].
  { exists 0, du. split; [lia|]. split; [reflexivity|]. split; [unfold covers; lia|]. intros; lia. }
  all: specialize (IH (S i) n); destruct (get_chunk_from (S i) r n) as [k|];
    [destruct IH as (j & d & E & N & C & F); exists (S j), d; split; [lia|]; split; [exact N|]; split; [exact C|]; intros [|j'] d' J N'; [inversion N'; subst; unfold covers; lia|]; apply (F j'); [lia|exact N']
    |intros d [<-|I]; [unfold covers; lia|auto]].
Qed.
(** Looking up a line gives the first chunk that covers it, and nothing only if there is
    none. *)
Theorem C29_lookup : forall cs n, match get_chunk cs n with
  | Some k => exists du, nth_error cs k = Some du /\ covers du n /\ forall j du', j < k -> nth_error cs j = Some du' -> ~ covers du' n
  | None => forall du, In du cs -> ~ covers du n end.
Proof.
  intros cs n. pose proof (get_chunk_spec cs 0 n) as H. unfold get_chunk. destruct (get_chunk_from 0 cs n); [|exact H]. destruct H as (j & du & -> & H). exists du. exact H.
Qed.
Example C29_ex : get_chunk [Chunk 3 5; Chunk 9 9] 9 = Some 1 /\ get_chunk [Chunk 3 5; Chunk 9 9] 7 = None /\ get_chunk [Chunk 3 5; Chunk 9 9] 3 = Some 0.
Proof. repeat split. Qed.

(** ** Specification of unified diffs. *)
Inductive bline := Ctx (t : bytes) | Empty | Del (t : bytes) | Add (t : bytes).
Definition render_line (b : bline) : bytes := match b with Ctx t => SP :: t | Empty => [] | Del t => "-"%char :: t | Add t => PLUS :: t end.
(** A hunk: the old range, the new range, what follows the second @@ and its lines. *)
Record hunk := Hunk { h_old : bytes; h_c : bytes; h_d : option bytes; h_text : bytes; h_body : list bline }.
Definition render_hunk (h : hunk) : list bytes :=
  (s2b "@@ -" ++ h_old h ++ s2b " +" ++ h_c h ++ match h_d h with Some d => ","%char :: d | None => [] end ++ s2b " @@" ++ h_text h) :: List.map render_line (h_body h).
Fixpoint new_lines (b : list bline) : N := match b with [] => 0 | Del _ :: r => new_lines r | _ :: r => 1 + new_lines r end.
Fixpoint added (n : N) (b : list bline) : list N :=
  match b with [] => [] | Del _ :: r => added n r | Add _ :: r => n :: added (n + 1) r | _ :: r => added (n + 1) r end.
Definition numeral (ds : bytes) : Prop := ds <> [] /\ forall c, In c ds -> isdigit c = true.
Fixpoint has_at (s : bytes) : bool := match s with [] => false | c :: r => starts_with (s2b "@@") s || has_at r end.
Record hunk_ok (h : hunk) : Prop := {
  ho_old : forall c, In c (h_old h) -> isdigit c = true \/ c = ","%char;
  ho_c : numeral (h_c h);
  ho_d : match h_d h with Some d => numeral d /\ val d = new_lines (h_body h) | None => new_lines (h_body h) = 1%N end;
  ho_text : h_text h = [] \/ exists t, h_text h = SP :: t /\ has_at t = false;
  ho_new : (new_lines (h_body h) <> 0 -> 1 <= val (h_c h))%N;
  ho_fit : (val (h_c h) + new_lines (h_body h) < 2 ^ 32)%N
}.
(** Lines that are neither +++ nor @@ lines. *)
Definition other (l : bytes) : Prop := starts_with (s2b "+++") l = false /\ starts_with (s2b "@@") l = false.
Inductive item := Other (l : bytes) | OneHunk (h : hunk).
Definition render_item (i : item) : list bytes := match i with Other l => [l] | OneHunk h => render_hunk h end.
(** Hunks come in order and do not overlap; [n] is the first line not yet covered. *)
Fixpoint items_ok (n : N) (l : list item) : Prop :=
  match l with
  | [] => True
  | Other x :: r => other x /\ items_ok n r
  | OneHunk h :: r => hunk_ok h /\ (if N.eqb (new_lines (h_body h)) 0 then items_ok n r else (n <= val (h_c h))%N /\ items_ok (val (h_c h) + new_lines (h_body h)) r)
  end.
Definition item_added (i : item) : list N := match i with Other _ => [] | OneHunk h => added (val (h_c h)) (h_body h) end.
(** The part of a diff about one file: lines in front, the +++ line, hunks. *)
Record section := Section_ { x_front : list bytes; x_blank : bytes; x_path : bytes; x_rest : bytes; x_items : list item }.
Definition render_section (x : section) : list bytes := x_front x ++ (s2b "+++" ++ x_blank x ++ x_path x ++ x_rest x) :: flat_map render_item (x_items x).
Record section_ok (x : section) : Prop := {
  so_front : forall l, In l (x_front x) -> other l;
  so_blank : x_blank x <> [] /\ forall c, In c (x_blank x) -> isspace c = true;
  so_path : x_path x <> [] /\ forall c, In c (x_path x) -> isspace c = false;
  so_rest : x_rest x = [] \/ exists c t, x_rest x = c :: t /\ isspace c = true;
  so_items : items_ok 0 (x_items x)
}.
(** The name of the file: git prefixes it. *)
Definition file_name (x : section) : bytes := if starts_with (s2b "b/") (x_path x) then skipn 2 (x_path x) else x_path x.

(** ** What is claimed of the result. *)
Fixpoint chunks_ok (n : N) (cs : list chunk) : Prop := match cs with [] => True | du :: r => (n < du_beg du)%N /\ (du_beg du <= du_end du)%N /\ chunks_ok (du_end du) r end.
Definition file_ok (x : section) (f : file) : Prop :=
  fe_path f = file_name x /\ chunks_ok 0 (fe_diff f) /\
  forall n, (exists du, In du (fe_diff f) /\ covers du n) <-> In n (flat_map item_added (x_items x)).

(** ** The headers are recognised. *)
Lemma find_down_max : forall A (f : nat -> option A) n i r, i < n -> f i = Some r -> (forall j, i < j -> j < n -> f j = None) -> find_down f n = Some r.
Proof.
  intros A f. induction n as [|n IH]; intros i r Hi Hf Hj; [lia|]. cbn [find_down]. destruct (Nat.eq_dec i n) as [->|N].
  - rewrite Hf. reflexivity.
  - rewrite (Hj n) by lia. apply (IH i); auto. lia.
Qed.
Lemma span_app : forall p (a b : bytes), (forall c, In c a -> p c = true) -> (b = [] \/ exists c t, b = c :: t /\ p c = false) -> span_len p (a ++ b) = length a.
Proof.
  intros p. induction a as [|c a IH]; intros b Ha Hb; cbn [app span_len length].
  - destruct Hb as [->|(c & t & -> & E)]; cbn [span_len]; [reflexivity|]. rewrite E. reflexivity.
  - rewrite (Ha c (or_introl eq_refl)). f_equal. apply IH; auto. intros d Hd. apply Ha. right. exact Hd.
Qed.
Lemma firstn_len : forall A (a b : list A), firstn (length a) (a ++ b) = a.
Proof. intros A a b. rewrite firstn_app, firstn_all, Nat.sub_diag. apply app_nil_r. Qed.
Lemma skipn_len : forall A (a b : list A), skipn (length a) (a ++ b) = b.
Proof. intros A a b. rewrite skipn_app, skipn_all, Nat.sub_diag. reflexivity. Qed.
Lemma repath_ok : forall bl path rest, bl <> [] -> (forall c, In c bl -> isspace c = true) -> path <> [] -> (forall c, In c path -> isspace c = false) -> (rest = [] \/ exists c t, rest = c :: t /\ isspace c = true) ->
  repath (s2b "+++" ++ bl ++ path ++ rest) = Some path.
Proof.
  intros bl path rest B1 B2 P1 P2 R. unfold repath. change (starts_with (s2b "+++") (s2b "+++" ++ bl ++ path ++ rest)) with true. cbv iota. change (skipn 3 (s2b "+++" ++ bl ++ path ++ rest)) with (bl ++ path ++ rest).
  rewrite (span_app isspace bl (path ++ rest)); [|exact B2|right; destruct path as [|c t]; [congruence|]; exists c, (t ++ rest); split; [reflexivity|]; apply P2; left; reflexivity].
  cbv zeta. rewrite skipn_len. rewrite (span_app (fun c => negb (isspace c)) path rest); [|intros c Hc; rewrite P2 by exact Hc; reflexivity|destruct R as [->|(c & t & -> & E)]; [left; reflexivity|right; exists c, t; rewrite E; auto]].
  destruct bl as [|b bl]; [congruence|]. destruct path as [|p path]; [congruence|]. cbn [length Nat.eqb orb]. f_equal. apply (firstn_len _ (p :: path) rest).
Qed.

Lemma starts_at : forall s, starts_with (s2b "@@") s = true <-> exists t, s = AT :: AT :: t.
Proof.
  intros s. change (s2b "@@") with [AT; AT]. split.
  - destruct s as [|a [|b t]]; cbn [starts_with]; try discriminate.
    + destruct (Ascii.eqb AT a); discriminate.
    + intros H. rewrite !andb_true_iff in H. destruct H as [H1 [H2 _]]. apply Ascii.eqb_eq in H1, H2. subst. eauto.
  - intros [t ->]. reflexivity.
Qed.
Lemma has_at_skip : forall t k, has_at t = false -> starts_with (s2b "@@") (skipn k t) = false.
Proof.
  induction t as [|c t IH]; intros k H; [destruct k; reflexivity|]. cbn [has_at] in H. apply orb_false_iff in H. destruct H as [H1 H2]. destruct k as [|k]; [exact H1|]. apply IH. exact H2.
Qed.
Lemma nth_skip : forall A (s : list A) k c t, skipn k s = c :: t -> nth_error s k = Some c.
Proof. induction s as [|x s IH]; intros k c t H; destruct k as [|k]; cbn in *; try discriminate; [congruence|]. eapply IH. exact H. Qed.

Lemma nth_skipn : forall A k (s : list A) i, nth_error (skipn k s) i = nth_error s (k + i).
Proof. intros A. induction k as [|k IH]; intros s i; [reflexivity|]. destruct s as [|x s]; [destruct i; reflexivity|]. cbn [skipn Nat.add nth_error]. apply IH. Qed.
Lemma skip_skip : forall A k (s : list A) m, skipn m (skipn k s) = skipn (k + m) s.
Proof. intros A. induction k as [|k IH]; intros s m; [reflexivity|]. destruct s as [|x s]; [destruct m; reflexivity|]. cbn [skipn Nat.add]. apply IH. Qed.
(** The part of a header in front of the text contains @@ only at its ends. *)
Lemma head_at : forall mid text k, (forall c, In c mid -> c <> AT) -> (text = [] \/ exists t, text = SP :: t /\ has_at t = false) -> 0 < k ->
  starts_with (s2b "@@") (skipn k (s2b "@@" ++ mid ++ s2b "@@" ++ text)) = true -> mid <> [] -> k = 2 + length mid.
Proof.
  intros mid text k M T Hk H NE. apply starts_at in H. destruct H as (t & H). set (s := s2b "@@" ++ mid ++ s2b "@@" ++ text) in *.
  assert (N0 : nth_error s k = Some AT) by (eapply nth_skip; exact H).
  assert (N1 : nth_error s (S k) = Some AT).
  { apply (nth_skip _ s (S k) AT t). replace (S k) with (1 + k) by lia. change (skipn (1 + k) s) with (skipn (S k) s). clear - H. revert k H. induction s as [|x s IH]; intros k H; [destruct k; discriminate|]. destruct k as [|k]; [cbn in *; inversion H; reflexivity|]. cbn [skipn] in *. apply IH. exact H. }
  assert (MID : forall i, 2 <= i < 2 + length mid -> nth_error s i <> Some AT).
  { intros i Hi E. unfold s in E. change (s2b "@@" ++ mid ++ s2b "@@" ++ text) with (AT :: AT :: mid ++ s2b "@@" ++ text) in E. destruct i as [|[|i]]; try lia. cbn [nth_error] in E. rewrite nth_error_app1 in E by lia. apply (M AT); [eapply nth_error_In; exact E|reflexivity]. }
  destruct (Nat.lt_ge_cases k (2 + length mid)) as [A|A].
  { exfalso. destruct (Nat.eq_dec k 1) as [->|N]; [|apply (MID k); [lia|exact N0]]. apply (MID 2); [|exact N1]. destruct mid; [congruence|cbn; lia]. }
  destruct (Nat.eq_dec k (2 + length mid)) as [E|N]; [exact E|]. exfalso.
  assert (TX : forall i, nth_error s (4 + length mid + i) = nth_error text i).
  { intros i. unfold s. rewrite !app_assoc. rewrite nth_error_app2 by (rewrite !app_length; change (length (s2b "@@")) with 2; lia). f_equal. rewrite !app_length. change (length (s2b "@@")) with 2. lia. }
  destruct (Nat.eq_dec k (3 + length mid)) as [E|N'].
  - subst k. replace (S (3 + length mid)) with (4 + length mid + 0) in N1 by lia. rewrite TX in N1. destruct T as [->|(t' & -> & _)]; discriminate.
  - replace k with (4 + length mid + (k - 4 - length mid)) in N0, N1 by lia. replace (S (4 + length mid + (k - 4 - length mid))) with (4 + length mid + S (k - 4 - length mid)) in N1 by lia. rewrite TX in N0, N1. set (j := k - 4 - length mid) in *.
    destruct T as [->|(t' & -> & NA)]; [destruct j; discriminate|]. destruct j as [|j]; [discriminate|]. cbn [nth_error] in N0, N1.
    assert (Q : starts_with (s2b "@@") (skipn j t') = true).
    { apply starts_at. clear - N0 N1. revert j N0 N1. induction t' as [|x t' IH]; intros j N0 N1; [destruct j; discriminate|]. destruct j as [|j].
      - cbn in N0. inversion N0; subst x. destruct t' as [|y t']; [discriminate|]. cbn in N1. inversion N1; subst y. exists t'. reflexivity.
      - apply IH; assumption. }
    rewrite (has_at_skip _ _ NA) in Q. discriminate.
Qed.

Lemma digit_not : forall c, isdigit c = true -> c <> AT /\ c <> PLUS /\ c <> ","%char /\ c <> SP.
Proof. intros c H. repeat split; intros ->; vm_compute in H; discriminate. Qed.
Lemma nth_in_mid : forall A (a b c : list A) i x, nth_error (a ++ b ++ c) i = Some x -> length a <= i < length a + length b -> In x b.
Proof. intros A a b c i x H L. rewrite nth_error_app2 in H by lia. rewrite nth_error_app1 in H by lia. eapply nth_error_In. exact H. Qed.

Lemma rechunk_ok : forall h, hunk_ok h -> let s := hd [] (render_hunk h) in
  let o := 5 + length (h_old h) in
  rechunk s = Some (S o, match h_d h with Some d => Some (S (S o + length (h_c h))) | None => None end) /\
  skipn (S o) s = h_c h ++ match h_d h with Some d => ","%char :: d | None => [] end ++ s2b " @@" ++ h_text h /\
  (forall d, h_d h = Some d -> skipn (S (S o + length (h_c h))) s = d ++ s2b " @@" ++ h_text h).
Proof.
  intros h [OLD [C1 C2] D T _ _]. cbv zeta. cbn [render_hunk hd]. set (dd := match h_d h with Some d => ","%char :: d | None => [] end).
  set (mid := s2b " -" ++ h_old h ++ s2b " +" ++ h_c h ++ dd ++ s2b " ").
  assert (ES : s2b "@@ -" ++ h_old h ++ s2b " +" ++ h_c h ++ dd ++ s2b " @@" ++ h_text h = s2b "@@" ++ mid ++ s2b "@@" ++ h_text h).
  { unfold mid. rewrite <- !app_assoc. reflexivity. }
  rewrite ES. set (s := s2b "@@" ++ mid ++ s2b "@@" ++ h_text h). set (o := 5 + length (h_old h)).
  assert (SO : skipn (S o) s = h_c h ++ dd ++ s2b " @@" ++ h_text h).
  { unfold s, mid. rewrite <- !app_assoc. replace (S o) with (length (s2b "@@" ++ s2b " -" ++ h_old h ++ s2b " +")) by (rewrite !app_length; cbn; lia).
    replace (s2b "@@" ++ s2b " -" ++ h_old h ++ s2b " +" ++ h_c h ++ dd ++ s2b " " ++ s2b "@@" ++ h_text h) with ((s2b "@@" ++ s2b " -" ++ h_old h ++ s2b " +") ++ h_c h ++ dd ++ s2b " @@" ++ h_text h) by (rewrite <- !app_assoc; reflexivity).
    apply skipn_len. }
  assert (DG : forall d, h_d h = Some d -> numeral d) by (intros d E; rewrite E in D; tauto).
  assert (MA : forall c, In c mid -> c <> AT).
  { intros c Hc. unfold mid in Hc. rewrite !in_app_iff in Hc. destruct Hc as [Hc|[Hc|[Hc|[Hc|[Hc|Hc]]]]].
    - cbn in Hc. intuition (subst; discriminate).
    - destruct (OLD c Hc) as [E| ->]; [apply digit_not in E; tauto|discriminate].
    - cbn in Hc. intuition (subst; discriminate).
    - specialize (C2 c Hc). apply digit_not in C2. tauto.
    - unfold dd in Hc. destruct (h_d h) as [d|] eqn:E; [|destruct Hc]. destruct Hc as [<-|Hc]; [discriminate|]. destruct (DG d eq_refl) as [_ Q]. specialize (Q c Hc). apply digit_not in Q. tauto.
    - cbn in Hc. intuition (subst; discriminate). }
  assert (MN : mid <> []) by discriminate.
  assert (LM : length mid = 5 + length (h_old h) + length (h_c h) + length dd) by (unfold mid; rewrite !app_length; cbn; lia).
  assert (NP : forall i c, nth_error s (S o + i) = Some c -> i < length (h_c h ++ dd ++ s2b " @@") -> c <> PLUS).
  { intros i c E Hi. assert (Q : nth_error (skipn (S o) s) i = Some c) by (rewrite nth_skipn; exact E).
    rewrite SO in Q. replace (h_c h ++ dd ++ s2b " @@" ++ h_text h) with ((h_c h ++ dd ++ s2b " @@") ++ h_text h) in Q by (rewrite <- !app_assoc; reflexivity). rewrite nth_error_app1 in Q by exact Hi. apply nth_error_In in Q. rewrite !in_app_iff in Q. destruct Q as [Q|[Q|Q]].
    - specialize (C2 c Q). apply digit_not in C2. tauto.
    - unfold dd in Q. destruct (h_d h) as [d|] eqn:E'; [|destruct Q]. destruct Q as [<-|Q]; [discriminate|]. destruct (DG d eq_refl) as [_ Q']. specialize (Q' c Q). apply digit_not in Q'. tauto.
    - cbn in Q. intuition (subst; discriminate). }
  assert (NS : forall i, nth_error s (S o + i) = nth_error (h_c h ++ dd ++ s2b " @@" ++ h_text h) i).
  { intros i. rewrite <- SO. symmetry. apply nth_skipn. }
  assert (PO : nth_error s o = Some PLUS).
  { unfold s, mid. replace (s2b "@@" ++ (s2b " -" ++ h_old h ++ s2b " +" ++ h_c h ++ dd ++ s2b " ") ++ s2b "@@" ++ h_text h) with ((s2b "@@" ++ s2b " -" ++ h_old h ++ s2b " ") ++ PLUS :: h_c h ++ dd ++ s2b " @@" ++ h_text h) by (rewrite <- !app_assoc; reflexivity).
    assert (LO : length (s2b "@@" ++ s2b " -" ++ h_old h ++ s2b " ") = o) by (rewrite !app_length; cbn; lia). rewrite nth_error_app2 by lia. rewrite LO, Nat.sub_diag. reflexivity. }
  assert (C0 : exists c r, h_c h = c :: r /\ isdigit c = true) by (destruct (h_c h) as [|c r]; [congruence|]; exists c, r; split; [reflexivity|]; apply C2; left; reflexivity).
  split; [|split].
  - unfold rechunk. change (starts_with (s2b "@@") s) with true. cbv iota. set (e := 4 + length mid).
    assert (LS : length s = 4 + length mid + length (h_text h)) by (unfold s; rewrite !app_length; cbn; lia).
    apply (find_down_max _ _ _ e); [lia| |].
    + assert (EA : starts_with (s2b "@@") (skipn (e - 2) s) = true).
      { apply starts_at. exists (h_text h). unfold e. replace (4 + length mid - 2) with (length (s2b "@@" ++ mid)) by (rewrite app_length; cbn; lia). unfold s. rewrite app_assoc, skipn_len. reflexivity. }
      rewrite EA. change (2 <=? e) with true. cbn [andb]. apply (find_down_max _ _ _ o); [unfold e; lia| |].
      * destruct (Nat.leb_spec 3 o) as [_|Q]; [|unfold o in Q; lia]. unfold chunk_at. rewrite PO. change (Ascii.eqb PLUS PLUS) with true. cbn [andb].
        replace (S o) with (S o + 0) at 1 by lia. rewrite NS. destruct C0 as (c & r & EC & DC). assert (C00 : nth_error (h_c h ++ dd ++ s2b " @@" ++ h_text h) 0 = Some c) by (rewrite EC; reflexivity). rewrite C00, DC. cbn [andb].
        assert (L1 : 1 <= length (h_c h)) by (rewrite EC; cbn; lia).
        destruct (Nat.leb_spec (o + 3) (e - 2)) as [_|Q]; [|unfold o, e in Q; lia]. rewrite SO.
        assert (RUN : span_len isdigit (h_c h ++ dd ++ s2b " @@" ++ h_text h) = length (h_c h)).
        { apply span_app; [exact C2|]. right. unfold dd. destruct (h_d h) as [d|]; cbn [app]; eexists _, _; (split; [reflexivity|reflexivity]). }
        rewrite RUN. replace (S (S o + length (h_c h))) with (S o + S (length (h_c h))) by lia. rewrite !NS.
        rewrite (nth_error_app2 (h_c h) _ (n := length (h_c h))) by lia. rewrite (nth_error_app2 (h_c h) _ (n := S (length (h_c h)))) by lia. rewrite Nat.sub_diag. replace (S (length (h_c h)) - length (h_c h)) with 1 by lia.
        assert (LDD : match h_d h with Some d => 1 <= length d /\ length dd = S (length d) | None => True end) by (unfold dd; destruct (h_d h) as [d|]; [|exact I]; destruct (DG d eq_refl) as [Q _]; destruct d; [congruence|]; cbn; lia).
        unfold dd. destruct (h_d h) as [d|] eqn:ED; cbn [app nth_error].
        -- destruct (DG d eq_refl) as [Q1 Q2]. destruct d as [|d0 d']; [congruence|]. cbn [app]. change (Ascii.eqb "," ",") with true. rewrite (Q2 d0 (or_introl eq_refl)). cbn [andb].
           destruct (Nat.leb_spec (S o + length (h_c h) + 3) (e - 2)) as [_|Q]; [reflexivity|]. exfalso. unfold e in Q. cbn [length] in LDD. unfold o in Q. lia.
        -- change (Ascii.eqb SP ",") with false. reflexivity.
      * intros j J1 J2. destruct (3 <=? j); [|reflexivity]. unfold chunk_at. destruct (nth_error s j) as [c|] eqn:EJ; [|reflexivity].
        replace j with (S o + (j - S o)) in EJ by lia. apply NP in EJ; [|rewrite !app_length; unfold e in J2; cbn; lia].
        destruct (Ascii.eqb_spec c PLUS); [contradiction|reflexivity].
    + intros j J1 J2. destruct (Nat.leb_spec 2 j); cbn [andb]; [|reflexivity]. destruct (starts_with (s2b "@@") (skipn (j - 2) s)) eqn:Q; [|reflexivity]. exfalso.
      apply (head_at mid (h_text h)) in Q; [unfold e in J1; lia|exact MA|exact T|unfold e in J1; lia|exact MN].
  - exact SO.
  - intros d ED. unfold dd in SO. rewrite ED in SO.
    assert (Q : skipn (S (S o + length (h_c h))) s = skipn (S (length (h_c h))) (skipn (S o) s)).
    { rewrite skip_skip. f_equal. lia. }
    rewrite Q, SO. replace (h_c h ++ (","%char :: d) ++ s2b " @@" ++ h_text h) with ((h_c h ++ [","%char]) ++ d ++ s2b " @@" ++ h_text h) by (rewrite <- app_assoc; reflexivity).
    replace (S (length (h_c h))) with (length (h_c h ++ [","%char])) by (rewrite app_length; cbn; lia). apply skipn_len.
Qed.

Lemma strtou_ok : forall ds rest, (forall c, In c ds -> isdigit c = true) -> (exists c t, rest = c :: t /\ isdigit c = false) -> (val ds < 2 ^ 32)%N -> strtou (ds ++ rest) = val ds.
Proof.
  intros ds rest H1 (c & t & -> & E) H2. unfold strtou. rewrite (span_app isdigit ds (c :: t)); [|exact H1|right; eauto]. rewrite firstn_len. destruct (N.ltb_spec (2 ^ 32 - 1) (val ds)); [lia|reflexivity].
Qed.
Lemma matchchunk_ok : forall h, hunk_ok h -> matchchunk (hd [] (render_hunk h)) =
  (if N.eqb (new_lines (h_body h)) 0 then None else Some (val (h_c h), (val (h_c h) + new_lines (h_body h) - 1)%N)).
Proof.
  intros h H. destruct (rechunk_ok h H) as (R & S1 & S3). destruct H as [OLD [C1 C2] D T NW FIT]. unfold matchchunk. rewrite R, S1.
  rewrite strtou_ok; [|exact C2| |lia].
  2:{ destruct (h_d h); cbn [app]; eexists _, _; (split; [reflexivity|reflexivity]). }
  destruct (h_d h) as [d|] eqn:ED.
  - destruct D as [[D1 D2] D3]. rewrite (S3 d eq_refl). rewrite strtou_ok; [|exact D2|eexists _, _; split; reflexivity|lia]. rewrite D3.
    destruct (N.eqb_spec (val (h_c h)) 0) as [Z|Z]; destruct (N.eqb_spec (new_lines (h_body h)) 0) as [Y|Y]; auto.
    + specialize (NW Y). lia.
    + f_equal. f_equal. replace (val (h_c h) + new_lines (h_body h) + (2 ^ 32 - 1))%N with ((val (h_c h) + new_lines (h_body h) - 1) + 1 * 2 ^ 32)%N by lia. rewrite N.mod_add by discriminate. apply N.mod_small. lia.
  - rewrite D in *. destruct (N.eqb_spec (val (h_c h)) 0) as [Z|Z]; [specialize (NW ltac:(discriminate)); lia|]. cbn [N.eqb]. f_equal. f_equal. lia.
Qed.
Lemma hunk_nopath : forall ndirs missing h, matchpath ndirs missing (hd [] (render_hunk h)) = None.
Proof. intros ndirs missing h. reflexivity. Qed.

(** ** The loop over the lines of a hunk. *)
Lemma diff_end_app : forall cs b lno, diff_end (cs ++ [Chunk b 0]) lno = cs ++ [Chunk b lno].
Proof.
  induction cs as [|c cs IH]; intros b lno; [reflexivity|]. cbn [app]. specialize (IH b lno). destruct (cs ++ [Chunk b 0]) as [|x y] eqn:E; [destruct cs; discriminate|]. change (diff_end (c :: x :: y) lno) with (c :: diff_end (x :: y) lno). rewrite IH. reflexivity.
Qed.
Lemma diff_end_closed : forall cs lno, (forall du, In du cs -> du_end du <> 0%N) -> diff_end cs lno = cs.
Proof.
  induction cs as [|c cs IH]; intros lno H; [reflexivity|]. destruct cs as [|d cs].
  - cbn [diff_end]. destruct (N.eqb_spec (du_end c) 0); [exfalso; apply (H c); [left; reflexivity|assumption]|reflexivity].
  - change (diff_end (c :: d :: cs) lno) with (c :: diff_end (d :: cs) lno). f_equal. apply IH. intros du Hd. apply H. right. exact Hd.
Qed.
Lemma chunks_ends : forall cs n, chunks_ok n cs -> forall du, In du cs -> (0 < du_beg du /\ 0 < du_end du)%N.
Proof. induction cs as [|c cs IH]; intros n H du I; [destruct I|]. cbn [chunks_ok] in H. destruct I as [<-|I]; [lia|]. eapply IH; [apply H|exact I]. Qed.
Definition cov (cs : list chunk) (n : N) : Prop := exists du, In du cs /\ covers du n.
(** The state at line [n], the lines in [S] having been added. *)
Inductive at_line (cs : list chunk) (n : N) (S : list N) : Prop :=
| al_closed : chunks_ok 0 cs -> (forall du, In du cs -> du_end du < n)%N -> (forall k, cov cs k <-> In k S) -> at_line cs n S
| al_open : forall cl b, cs = cl ++ [Chunk b 0] -> chunks_ok 0 cl -> (forall du, In du cl -> du_end du < b)%N -> (0 < b < n)%N -> (forall k, cov cl k \/ (b <= k < n)%N <-> In k S) -> at_line cs n S.
Lemma chunks_snoc : forall cl n b e, chunks_ok n cl -> (forall du, In du cl -> du_end du < b)%N -> (n < b)%N -> (b <= e)%N -> chunks_ok n (cl ++ [Chunk b e]).
Proof.
  induction cl as [|c cl IH]; intros n b e H1 H2 H3 H4; cbn [app chunks_ok du_beg du_end] in *; [tauto|]. destruct H1 as (A & B & C). split; [exact A|]. split; [exact B|]. apply IH; auto; [intros du Hd; apply H2; right; exact Hd|apply H2; left; reflexivity].
Qed.
Lemma cov_snoc : forall cl b e k, cov (cl ++ [Chunk b e]) k <-> cov cl k \/ (b <= k <= e)%N.
Proof.
  intros cl b e k. unfold cov. split.
  - intros (du & I & C). apply in_app_or in I. destruct I as [I|[<-|[]]]; [left; eauto|right; exact C].
  - intros [(du & I & C)|C]; [exists du; split; [apply in_or_app; auto|exact C]|exists (Chunk b e); split; [apply in_or_app; right; left; reflexivity|exact C]].
Qed.
(** Closing at the line before [n]. *)
Lemma close_at : forall cs n S, at_line cs n S -> (0 < n)%N -> let cs' := diff_end cs (n - 1) in chunks_ok 0 cs' /\ (forall du, In du cs' -> du_end du < n)%N /\ (forall k, cov cs' k <-> In k S).
Proof.
  intros cs n S [C E V|cl b -> C E B V] Hn; cbv zeta.
  - rewrite diff_end_closed by (intros du Hd; pose proof (chunks_ends _ _ C du Hd); lia). auto.
  - rewrite diff_end_app. split; [apply chunks_snoc; auto; lia|]. split.
    + intros du Hd. apply in_app_or in Hd. destruct Hd as [Hd|[<-|[]]]; [specialize (E du Hd); lia|cbn [du_end]; lia].
    + intros k. rewrite cov_snoc, <- V. split; intros [Q|Q]; auto; right; lia.
Qed.
Lemma last_some : forall A (l : list A) x, last (List.map Some (l ++ [x])) None = Some x.
Proof. intros A l x. rewrite map_app. cbn [List.map]. apply last_last. Qed.
Lemma last_in : forall A (l : list A) x, last (List.map Some l) None = Some x -> In x l.
Proof. intros A l. induction l as [|y l IH]; intros x H; [discriminate|]. cbn [List.map last] in H. destruct l as [|z l]; [cbn in H; inversion H; left; reflexivity|]. right. apply IH. exact H. Qed.

Lemma line_step : forall b cs n S, at_line cs n S -> (0 < n < 2 ^ 32)%N ->
  let '(m, cs') := matchline (render_line b) n cs in
  match b with Del _ => m = false /\ cs' = cs | Add _ => m = true /\ at_line cs' (n + 1) (S ++ [n]) | _ => m = true /\ at_line cs' (n + 1) S end.
Proof.
  intros b cs n S A Hn.
  assert (NADD : let cs' := diff_end cs (N.modulo (n + (2 ^ 32 - 1)) (2 ^ 32)) in at_line cs' (n + 1) S).
  { cbv zeta. replace (n + (2 ^ 32 - 1))%N with ((n - 1) + 1 * 2 ^ 32)%N by lia. rewrite N.mod_add by discriminate. rewrite N.mod_small by lia.
    destruct (close_at cs n S A) as (C & E & V); [lia|]. apply al_closed; auto. intros du Hd. specialize (E du Hd). lia. }
  destruct b as [t| |t|t]; unfold matchline; cbn [render_line hd].
  - change (Ascii.eqb SP "-") with false. change (Ascii.eqb SP PLUS) with false. split; [reflexivity|exact NADD].
  - change (Ascii.eqb NUL "-") with false. change (Ascii.eqb NUL PLUS) with false. split; [reflexivity|exact NADD].
  - change (Ascii.eqb "-" "-") with true. split; reflexivity.
  - change (Ascii.eqb PLUS "-") with false. change (Ascii.eqb PLUS PLUS) with true. split; [reflexivity|].
    destruct A as [C E V|cl b -> C E B V].
    + assert (Q : at_line (cs ++ [Chunk n 0]) (n + 1) (S ++ [n])).
      { apply (al_open _ _ _ cs n); auto; [lia|]. intros k. rewrite V. rewrite in_app_iff. cbn [In]. split; intros [Q|Q]; auto; right; [left|]; lia. }
      destruct (last (List.map Some cs) None) as [du|] eqn:EL; [|exact Q]. apply last_in in EL. destruct (chunks_ends _ _ C du EL) as [Q1 Q2]. apply N.ltb_lt in Q1, Q2. rewrite Q1, Q2. exact Q.
    + rewrite last_some. cbn [du_beg du_end]. rewrite andb_false_r. apply (al_open _ _ _ cl b); auto; [lia|]. intros k. rewrite in_app_iff, <- V. cbn [In]. split; [intros [Q|Q]; [auto|]; destruct (N.eq_dec k n) as [->|Z]; [auto|]; left; right; lia|intros [[Q|Q]|[Q|[]]]; auto; right; lia].
Qed.

Lemma upd_last_app : forall f fs fe, upd_last f (fs ++ [fe]) = fs ++ [File (fe_path fe) (f (fe_diff fe))].
Proof. intros f fs fe. unfold upd_last. rewrite rev_app_distr. cbn [rev app]. rewrite rev_involutive. reflexivity. Qed.

Section Parse.
Variable ndirs : nat.
Variable missing : bytes -> bool.
Notation parse := (diff_parse ndirs missing).

Lemma body_run : forall body cs n S fs path rest el, at_line cs n S -> (0 < n)%N -> (n + new_lines body < 2 ^ 32)%N -> (el = n + new_lines body - 1)%N -> (0 < new_lines body)%N ->
  exists cs', parse (List.map render_line body ++ rest) (fs ++ [File path cs]) (Inner n el) = parse rest (fs ++ [File path cs']) Outer /\
  chunks_ok 0 cs' /\ (forall du, In du cs' -> du_end du < n + new_lines body)%N /\ (forall k, cov cs' k <-> In k (S ++ added n body)).
Proof.
  induction body as [|b body IH]; intros cs n S fs path rest el A Hn Hf El Hp; [cbn in Hp; lia|]. cbn [List.map app diff_parse]. rewrite rev_app_distr. cbn [rev app fe_diff].
  pose proof (line_step b cs n S A) as LS. destruct (matchline (render_line b) n cs) as [m cs1]. rewrite upd_last_app. cbn [fe_path].
  assert (B1 : (new_lines (b :: body) = match b with Del _ => new_lines body | _ => 1 + new_lines body end)%N) by (destruct b; reflexivity).
  rewrite B1 in *. assert (LS' := LS ltac:(destruct b; lia)). clear LS.
  assert (CASE : (match b with Del _ => True | _ => False end) \/ m = true /\ at_line cs1 (n + 1) (S ++ match b with Add _ => [n] | _ => [] end) /\ added n (b :: body) = match b with Add _ => [n] | _ => [] end ++ added (n + 1) body /\ (match b with Del _ => new_lines body | _ => 1 + new_lines body end = 1 + new_lines body)%N).
  { destruct b; [right|right|left; exact I|right]; cbn [added app]; rewrite ?app_nil_r; tauto. }
  destruct CASE as [CD|(Em & A1 & EA & EN)].
  - destruct b; try contradiction. destruct LS' as [-> ->]. unfold enter_loop. destruct (N.leb_spec n el); [|lia]. cbn [added]. apply IH; auto.
  - rewrite Em, EN in *. rewrite N.mod_small by lia. unfold enter_loop. destruct (N.leb_spec (n + 1) el) as [Q|Q].
    + assert (Hp' : (0 < new_lines body)%N) by lia. destruct (IH cs1 (n + 1)%N _ fs path rest el A1) as (cs' & P1 & P2 & P3 & P4); [lia|lia|lia|exact Hp'|].
      exists cs'. rewrite P1. split; [reflexivity|]. split; [exact P2|]. split; [intros du Hd; specialize (P3 du Hd); lia|]. intros k. rewrite P4, EA, app_assoc. tauto.
    + assert (Z : new_lines body = 0%N) by lia. rewrite upd_last_app. cbn [fe_path fe_diff]. destruct (close_at cs1 (n + 1)%N _ A1) as (P2 & P3 & P4); [lia|]. replace (n + 1 - 1)%N with el in * by lia.
      assert (DEL : forall f, parse (List.map render_line body ++ rest) f Outer = parse rest f Outer /\ added (n + 1) body = []).
      { intros f. clear - Z. revert Z. generalize (n + 1)%N as m. revert f. induction body as [|b body IH]; intros f m Z; [auto|]. destruct b as [t| |t|t]; cbn [new_lines] in Z; try lia. cbn [List.map app added]. destruct (IH f m Z) as [I1 I2]. split; [|exact I2]. exact I1. }
      destruct (DEL (fs ++ [File path (diff_end cs1 el)])) as [D1 D2]. rewrite D1. exists (diff_end cs1 el). split; [reflexivity|]. split; [exact P2|]. split; [intros du Hd; specialize (P3 du Hd); lia|].
      intros k. rewrite P4, EA, D2, app_nil_r. tauto.
Qed.

Lemma other_line : forall l rest f, other l -> parse (l :: rest) f Outer = parse rest f Outer.
Proof. intros l rest f [O1 O2]. cbn [diff_parse]. unfold matchpath, repath. rewrite O1. unfold matchchunk, rechunk. rewrite O2. reflexivity. Qed.
Lemma del_lines : forall body rest f n, new_lines body = 0%N -> parse (List.map render_line body ++ rest) f Outer = parse rest f Outer /\ added n body = [].
Proof. induction body as [|b body IH]; intros rest f n Z; [auto|]. destruct b as [t| |t|t]; cbn [new_lines] in Z; try lia. cbn [List.map app added]. rewrite other_line by (split; reflexivity). apply IH. exact Z. Qed.

Lemma items_run : forall items n cs S fs path rest, items_ok n items -> chunks_ok 0 cs -> (forall du, In du cs -> du_end du < n)%N -> (forall k, cov cs k <-> In k S) ->
  exists cs', parse (flat_map render_item items ++ rest) (fs ++ [File path cs]) Outer = parse rest (fs ++ [File path cs']) Outer /\ chunks_ok 0 cs' /\ (forall k, cov cs' k <-> In k (S ++ flat_map item_added items)).
Proof.
  induction items as [|i items IH]; intros n cs S fs path rest OK C E V; cbn [flat_map].
  { exists cs. rewrite app_nil_r. auto. }
  destruct i as [l|h]; cbn [items_ok] in OK.
  - destruct OK as [O OK]. cbn [render_item app item_added]. rewrite other_line by exact O. exact (IH n cs S fs path rest OK C E V).
  - destruct OK as [H OK]. cbn [render_item item_added]. unfold render_hunk at 1. rewrite <- app_assoc. cbn [app].
    change ((s2b "@@ -" ++ h_old h ++ s2b " +" ++ h_c h ++ match h_d h with Some d => ","%char :: d | None => [] end ++ s2b " @@" ++ h_text h)) with (hd [] (render_hunk h)).
    cbn [diff_parse]. rewrite hunk_nopath, matchchunk_ok by exact H. destruct (N.eqb_spec (new_lines (h_body h)) 0) as [Z|Z].
    + destruct (del_lines (h_body h) (flat_map render_item items ++ rest) (fs ++ [File path cs]) (val (h_c h)) Z) as [D1 D2]. rewrite D1, D2. cbn [app]. exact (IH n cs S fs path rest OK C E V).
    + destruct OK as [LE OK]. destruct (fs ++ [File path cs]) as [|f0 fr] eqn:EF; [destruct fs; discriminate|]. rewrite <- EF. clear EF f0 fr. pose proof (ho_new _ H Z) as P1. pose proof (ho_fit _ H) as P2.
      unfold enter_loop. destruct (N.leb_spec (val (h_c h)) (val (h_c h) + new_lines (h_body h) - 1)); [|lia].
      destruct (body_run (h_body h) cs (val (h_c h)) S fs path (flat_map render_item items ++ rest) (val (h_c h) + new_lines (h_body h) - 1)%N) as (cs1 & Q1 & Q2 & Q3 & Q4); try lia.
      { apply al_closed; auto. intros du Hd. specialize (E du Hd). lia. }
      rewrite Q1. destruct (IH _ cs1 (S ++ added (val (h_c h)) (h_body h)) fs path rest OK Q2 Q3 Q4) as (cs' & R1 & R2 & R3). exists cs'. rewrite app_assoc. auto.
Qed.

Lemma section_run : forall x fs rest, section_ok x -> exists path, matchpath ndirs missing (s2b "+++" ++ x_blank x ++ x_path x ++ x_rest x) = Some path /\
  exists f, parse (render_section x ++ rest) fs Outer = parse rest (fs ++ [f]) Outer /\ fe_path f = path /\ chunks_ok 0 (fe_diff f) /\ forall n, cov (fe_diff f) n <-> In n (flat_map item_added (x_items x)).
Proof.
  intros x fs rest [F [B1 B2] [P1 P2] R I]. unfold render_section. rewrite <- app_assoc.
  assert (FR : forall l rest fs, (forall y, In y l -> other y) -> parse (l ++ rest) fs Outer = parse rest fs Outer).
  { clear. induction l as [|y l IH]; intros rest fs H; [reflexivity|]. cbn [app]. rewrite other_line by (apply H; left; reflexivity). apply IH. intros z Hz. apply H. right. exact Hz. }
  rewrite FR by exact F. cbn [app diff_parse].
  destruct (matchpath ndirs missing (s2b "+++" ++ x_blank x ++ x_path x ++ x_rest x)) as [path|] eqn:EM.
  - exists path. split; [reflexivity|]. destruct (items_run (x_items x) 0 [] [] fs path rest I) as (cs & Q1 & Q2 & Q3); [exact Logic.I|intros du []|intros k; split; [intros (du & [] & _)|intros []]|].
    exists (File path cs). cbn [fe_path fe_diff]. change (x_rest x ++ [])  with (x_rest x ++ []). rewrite Q1. auto.
  - exfalso. unfold matchpath in EM. rewrite (repath_ok _ _ _ B1 B2 P1 P2 R) in EM. destruct ((0 <? ndirs) && _ && _); discriminate.
Qed.
End Parse.

Lemma starts_b : forall s, starts_with (s2b "b/") s = true -> exists t, s = "b"%char :: SLASH :: t.
Proof.
  intros s H. change (s2b "b/") with ["b"%char; SLASH] in H. destruct s as [|a [|b t]]; cbn [starts_with] in H; try discriminate.
  - rewrite andb_false_r in H. discriminate.
  - rewrite !andb_true_iff in H. destruct H as [H1 [H2 _]]. apply Ascii.eqb_eq in H1, H2. subst. eauto.
Qed.
(** For every well-formed unified diff: it is accepted, there is an entry for every +++ line
    in order, and its chunks are not empty, in order, disjoint and cover exactly the line
    numbers of added lines. *)
Theorem C28_parse : forall missing xs tail, (forall x, In x xs -> section_ok x) -> (forall l, In l tail -> other l) ->
  exists fs, diff_parse 0 missing (flat_map render_section xs ++ tail) [] Outer = (false, fs) /\ Forall2 file_ok xs fs.
Proof.
  intros missing xs tail OK TL.
  assert (G : forall xs, (forall x, In x xs -> section_ok x) -> forall fs0, exists fs, diff_parse 0 missing (flat_map render_section xs ++ tail) fs0 Outer = (false, fs0 ++ fs) /\ Forall2 file_ok xs fs).
  { clear xs OK. induction xs as [|x xs IH]; intros OK fs0; cbn [flat_map app].
    - exists []. split; [|constructor]. rewrite app_nil_r. clear - TL. revert fs0. induction tail as [|l t IH]; intros fs0; [reflexivity|]. rewrite other_line by (apply TL; left; reflexivity). apply IH. intros y Hy. apply TL. right. exact Hy.
    - rewrite <- app_assoc. destruct (section_run 0 missing x fs0 (flat_map render_section xs ++ tail) (OK x (or_introl eq_refl))) as (path & EP & f & Q1 & Q2 & Q3 & Q4).
      rewrite Q1. destruct (IH (fun y Hy => OK y (or_intror Hy)) (fs0 ++ [f])) as (fs & R1 & R2). exists (f :: fs). rewrite R1, <- app_assoc. split; [reflexivity|]. constructor; [|exact R2].
      split; [|split; [exact Q3|exact Q4]]. rewrite Q2. destruct (OK x (or_introl eq_refl)) as [_ [B1 B2] [P1 P2] RR _]. unfold matchpath in EP. rewrite (repath_ok _ _ _ B1 B2 P1 P2 RR) in EP. cbn [Nat.ltb Nat.leb andb] in EP. assert (E : (if starts_with (s2b "b/") (x_path x) then trimprefix (x_path x) else x_path x) = path) by (cbv zeta in EP; congruence). rewrite <- E. unfold file_name. clear.
      destruct (starts_with (s2b "b/") (x_path x)) eqn:SW; [|reflexivity]. apply starts_b in SW. destruct SW as (t & ->). reflexivity. }
  destruct (G xs OK []) as (fs & H). exists fs. exact H.
Qed.
(** The same below the root of a repository, with names as [matchpath] adjusts them. *)
Theorem C28_lines : forall ndirs missing xs tail, (forall x, In x xs -> section_ok x) -> (forall l, In l tail -> other l) ->
  exists fs, diff_parse ndirs missing (flat_map render_section xs ++ tail) [] Outer = (false, fs) /\
  Forall2 (fun x f => chunks_ok 0 (fe_diff f) /\ forall n, (exists du, In du (fe_diff f) /\ covers du n) <-> In n (flat_map item_added (x_items x))) xs fs.
Proof.
  intros ndirs missing xs tail OK TL.
  assert (G : forall xs, (forall x, In x xs -> section_ok x) -> forall fs0, exists fs, diff_parse ndirs missing (flat_map render_section xs ++ tail) fs0 Outer = (false, fs0 ++ fs) /\
    Forall2 (fun x f => chunks_ok 0 (fe_diff f) /\ forall n, (exists du, In du (fe_diff f) /\ covers du n) <-> In n (flat_map item_added (x_items x))) xs fs).
  { clear xs OK. induction xs as [|x xs IH]; intros OK fs0; cbn [flat_map app].
    - exists []. split; [|constructor]. rewrite app_nil_r. clear - TL. revert fs0. induction tail as [|l t IH]; intros fs0; [reflexivity|]. rewrite other_line by (apply TL; left; reflexivity). apply IH. intros y Hy. apply TL. right. exact Hy.
    - rewrite <- app_assoc. destruct (section_run ndirs missing x fs0 (flat_map render_section xs ++ tail) (OK x (or_introl eq_refl))) as (path & EP & f & Q1 & Q2 & Q3 & Q4).
      rewrite Q1. destruct (IH (fun y Hy => OK y (or_intror Hy)) (fs0 ++ [f])) as (fs & R1 & R2). exists (f :: fs). rewrite R1, <- app_assoc. split; [reflexivity|]. constructor; [|exact R2]. split; [exact Q3|exact Q4]. }
  destruct (G xs OK []) as (fs & H). exists fs. exact H.
Qed.

(** Whatever the header says, the numbers taken from it are line numbers of 32 bits: those
    that are too large are not cut off but make the header none. *)
Theorem C28_range : forall line sl el, matchchunk line = Some (sl, el) -> (1 <= sl < 2 ^ 32 /\ el < 2 ^ 32)%N /\
  exists a ds b, line = a ++ PLUS :: ds ++ b /\ ds <> [] /\ (forall c, In c ds -> isdigit c = true) /\ (forall c t, b = c :: t -> isdigit c = false) /\ val ds = sl.
Proof.
  intros line sl el H. unfold matchchunk in H. destruct (rechunk line) as [[o1 o3]|] eqn:R; [|discriminate].
  assert (ST : forall s, (strtou s < 2 ^ 32)%N) by (intros s; unfold strtou; destruct (N.ltb_spec (2 ^ 32 - 1) (val (firstn (span_len isdigit s) s))); lia).
  assert (O : exists p, o1 = S p /\ nth_error line p = Some PLUS /\ exists c, nth_error line (S p) = Some c /\ isdigit c = true).
  { unfold rechunk in R. destruct (starts_with (s2b "@@") line); [|discriminate]. revert R. generalize (S (length line)) as n. 
    induction n as [|n IH]; [discriminate|]. cbn [find_down]. destruct ((2 <=? n) && starts_with (s2b "@@") (skipn (n - 2) line)); [|exact IH].
    assert (G : forall k r, find_down (fun p => if 3 <=? p then chunk_at line n p else None) k = Some r -> exists p, fst r = S p /\ nth_error line p = Some PLUS /\ exists c, nth_error line (S p) = Some c /\ isdigit c = true).
    { induction k as [|k IHk]; intros r; [discriminate|]. cbn [find_down]. destruct (3 <=? k); [|apply IHk]. destruct (chunk_at line n k) as [r'|] eqn:C; [|apply IHk]. intros Q. injection Q as <-. exists k. unfold chunk_at in C. destruct (nth_error line k) as [c|]; [|discriminate]. destruct (Ascii.eqb_spec c PLUS) as [EC|]; [|discriminate].
      destruct (nth_error line (S k)) as [c'|]; [|discriminate]. destruct (isdigit c') eqn:D; [|discriminate]. cbn [andb] in C. destruct (k + 3 <=? n - 2); [|discriminate]. split; [|split; [congruence|exists c'; auto]]. match type of C with (if ?b then _ else _) = _ => destruct b end; injection C as <-; reflexivity. }
    destruct (find_down (fun p => if 3 <=? p then chunk_at line n p else None) n) as [r|] eqn:F; [|exact IH]. intros Q. injection Q as ->. apply (G _ _ F). }
  destruct O as (p & -> & O1 & c & O2 & O3). destruct (N.eqb_spec (strtou (skipn (S p) line)) 0) as [|NZ]; [discriminate|].
  assert (SL : sl = strtou (skipn (S p) line) /\ (el < 2 ^ 32)%N).
  { destruct o3 as [o3|]; [destruct (N.eqb (strtou (skipn o3 line)) 0); [discriminate|]|]; injection H as <- <-; (split; [reflexivity|]); [apply N.mod_lt; discriminate|apply ST]. }
  destruct SL as [-> EL]. split; [split; [specialize (ST (skipn (S p) line)); lia|exact EL]|].
  destruct (nth_error_split line p O1) as (a & b & E & LA). assert (SK : skipn (S p) line = b) by (rewrite E, <- LA; replace (S (length a)) with (length a + 1) by lia; rewrite skipn_app, skipn_all2 by lia; replace (length a + 1 - length a) with 1 by lia; reflexivity). rewrite SK in *.
  set (k := span_len isdigit b) in *. exists a, (firstn k b), (skipn k b). rewrite firstn_skipn. split; [exact E|].
  assert (N1 : nth_error b 0 = Some c) by (rewrite E in O2; rewrite nth_error_app2 in O2 by lia; replace (S p - length a) with 1 in O2 by lia; exact O2). destruct b as [|c0 b]; [discriminate|]. injection N1 as ->. 
  split; [unfold k; cbn [span_len]; rewrite O3; discriminate|]. split; [assert (F := span_len_all isdigit (c :: b)); rewrite Forall_forall in F; exact F|]. split.
  - intros c1 t Et. apply (span_len_stop isdigit (c :: b)). fold k. rewrite <- (firstn_skipn k (c :: b)) at 1. rewrite Et. rewrite nth_error_app2; rewrite firstn_length_le by apply span_len_le; [rewrite Nat.sub_diag; reflexivity|lia].
  - unfold strtou in *. fold k in NZ |- *. destruct (N.ltb_spec (2 ^ 32 - 1) (val (firstn k (c :: b)))); [congruence|reflexivity].
Qed.


(** ** Where it goes wrong. *)
(** diff(1) marks a last line without newline by a line of its own, which is taken for a
    line of the file: the line behind it is not recorded. *)
Definition nonl : list bytes := [s2b "+++ b/a.c"; s2b "@@ -1 +1 @@"; s2b "-old"; s2b "\ No newline at end of file"; s2b "+new"].
Theorem C28_nonewline_refuted : exists lines, diff_parse 0 (fun _ => false) lines [] Outer = (false, [File (s2b "a.c") []]) /\
  lines = [s2b "+++ b/a.c"; s2b "@@ -1 +1 @@"; s2b "-old"; s2b "\ No newline at end of file"; s2b "+new"].
Proof. exists nonl. split; vm_compute; reflexivity. Qed.
(** The text behind a header that itself looks like one is taken for it. *)
Theorem C28_header_refuted : exists line, matchchunk line = Some (7%N, 7%N) /\ line = s2b "@@ -1 +1 @@ x +7 @@".
Proof. eexists. split; [|reflexivity]. vm_compute. reflexivity. Qed.

Definition x28 : section := Section_ [s2b "diff --git a/x.c b/x.c"; s2b "--- a/x.c"] (s2b " ") (s2b "b/x.c") []
  [OneHunk (Hunk (s2b "3,4") (s2b "3") (Some (s2b "5")) (s2b " int main(void)") [Ctx (s2b "a"); Add (s2b "b"); Del (s2b "c"); Add (s2b "d"); Empty; Add (s2b "e")]);
   Other (s2b "\ No newline at end of file"); OneHunk (Hunk (s2b "20,2") (s2b "19") (Some (s2b "0")) [] [Del (s2b "x"); Del (s2b "+++ y")]); OneHunk (Hunk (s2b "30") (s2b "29") None [] [Add (s2b "z")])].
Example C28_range_ok : matchchunk (s2b "@@ -1 +4294967295,2 @@") = Some (4294967295%N, 0%N) /\ matchchunk (s2b "@@ -1 +4294967296,2 @@") = None.
Proof. split; vm_compute; reflexivity. Qed.
Example C28_ok : section_ok x28.
Proof.
  constructor; cbn [x28 x_front x_blank x_path x_rest x_items].
  - intros l [<-|[<-|[]]]; split; reflexivity.
  - split; [discriminate|]. intros c [<-|[]]. reflexivity.
  - split; [discriminate|]. intros c H. cbn in H. intuition (subst; reflexivity).
  - left. reflexivity.
  - cbn [items_ok]. 
    assert (NUMS : forall s, forallb isdigit s = true -> s <> [] -> numeral s) by (intros s H N; split; [exact N|]; apply forallb_forall; exact H).
    split; [|cbn; split; [discriminate|split; [split; reflexivity|split; [|split; [|split; [discriminate|exact I]]]]]].
    all: constructor; cbn [h_old h_c h_d h_text h_body].
    all: try (intros c H; cbn in H; intuition (subst; auto); fail).
    all: try (apply NUMS; [reflexivity|discriminate]).
    all: try (split; [apply NUMS; [reflexivity|discriminate]|reflexivity]).
    all: try reflexivity.
    all: try (left; reflexivity).
    all: try (right; eexists; split; [reflexivity|reflexivity]).
    all: try (vm_compute; discriminate).
    all: try (intros _; vm_compute; discriminate).
Qed.
Example C28_ex : diff_parse 0 (fun _ => false) (render_section x28) [] Outer = (false, [File (s2b "x.c") [Chunk 4 5; Chunk 7 7; Chunk 29 29]]).
Proof. vm_compute. reflexivity. Qed.

Print Assumptions C28_parse.
Print Assumptions C28_lines.
Print Assumptions C28_range.
Print Assumptions C29_lookup.
