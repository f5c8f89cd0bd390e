(** C30: aligned columns line up. *)
From Coq Require Import Lia.
From Verif Require Import Base StrModel UtilModel UtilProofs DocModel RulerModel.

(** ** Specification. *)
(** The use of a ruler: entries are inserted in columns, indents added and removed. *)
Inductive op := Insert (tk : rtok) (col len nspaces : nat) | AddIndent (sign : bool) | DropIndent.
Fixpoint run (ops : list op) (rl : ruler) : option ruler :=
  match ops with
  | [] => Some rl
  | Insert tk col len nsp :: r => match ruler_insert rl tk col len nsp with Some rl => run r rl | None => None end
  | AddIndent s :: r => run r (ruler_indent rl s)
  | DropIndent :: r => run r (ruler_indent_remove rl)
  end.
(** What was inserted in a column: width of the text in front and number of spaces (stars
    of a pointer) behind the alignment. *)
Definition entries (col : nat) (ops : list op) : list (nat * nat) :=
  flat_map (fun o => match o with Insert _ c len nsp => if c =? col then [(len, nsp)] else [] | _ => [] end) ops.
(** Columns are used from the first on; [n] are in use. *)
Fixpoint in_order (n : nat) (ops : list op) : Prop :=
  match ops with
  | [] => True
  | Insert tk col _ _ :: r => 1 <= col <= S n /\ in_order (Nat.max n col) r
  | _ :: r => in_order n r
  end.
Fixpoint ncols (ops : list op) : nat := match ops with [] => 0 | Insert _ col _ _ :: r => Nat.max col (ncols r) | _ :: r => ncols r end.
Definition one_line (tk : rtok) : Prop := forall c, In c (t_str tk) -> c <> TAB /\ c <> NL.
Definition tokens_ok (ops : list op) : Prop := forall tk col len nsp, In (Insert tk col len nsp) ops -> one_line tk /\ 1 <= t_cno tk.
Definition no_indents (ops : list op) : Prop := forall s, ~ In (AddIndent s) ops.
(** A ruler needs a mode. *)
Definition some_mode (f : rflags) : Prop := f_min f || f_max f || f_fixed f || f_tabs f || f_sense f = true.
(** The modes in which columns are sized by their entries. *)
Definition sized (f : rflags) : Prop := f_max f = false /\ f_fixed f = false.

(** What an alignment prints, at the column [c]. *)
Definition end_col (a : align) (c : nat) (st : dstate) : nat := o_col (exec_align (a_indent a) (a_spaces a) (a_tabs a) (set_col c st)).

(** ** Printing an alignment. *)
Definition up8 (n : nat) : nat := (n + 7) - (n + 7) mod 8.
Lemma up8_spec : forall n, n <= up8 n < n + 8 /\ up8 n mod 8 = 0.
Proof.
  intros n. unfold up8. pose proof (Nat.div_mod (n + 7) 8 ltac:(lia)) as D. pose proof (Nat.mod_upper_bound (n + 7) 8 ltac:(lia)) as U. split; [lia|].
  replace (n + 7 - (n + 7) mod 8) with (((n + 7) / 8) * 8) by lia. apply Nat.mod_mul. lia.
Qed.
Lemma up8_unique : forall n m, n <= m < n + 8 -> m mod 8 = 0 -> up8 n = m.
Proof.
  intros n m H M. destruct (up8_spec n) as [A B]. pose proof (Nat.div_mod m 8 ltac:(lia)). pose proof (Nat.div_mod (up8 n) 8 ltac:(lia)). lia.
Qed.
Lemma up8_base : forall b n, b mod 8 = 0 -> up8 (b + n) = b + up8 n.
Proof.
  intros b n H. destruct (up8_spec n) as [A B]. apply up8_unique; [lia|]. rewrite Nat.add_mod by lia. rewrite H, B. reflexivity.
Qed.
Lemma next_stop : forall c, (c + (8 - c mod 8)) mod 8 = 0.
Proof. intros c. pose proof (Nat.div_mod c 8 ltac:(lia)) as D. pose proof (Nat.mod_upper_bound c 8 ltac:(lia)) as U. replace (c + (8 - c mod 8)) with ((c / 8 + 1) * 8) by lia. apply Nat.mod_mul. lia. Qed.
Lemma tab_col : forall st, o_col (print_indent1 8 true st) = o_col st + (8 - o_col st mod 8).
Proof. intros st. unfold print_indent1, strindent. cbn [strindent_tabs Nat.add Nat.leb]. cbn [set_col o_col]. cbn. lia. Qed.
Lemma spaces_col : forall n st, o_col (print_indent1 n false st) = o_col st + n.
Proof. intros n st. unfold print_indent1, strindent. cbn [set_col o_col]. lia. Qed.
Lemma align_tabs_col : forall fuel indent st, indent <= fuel -> o_col (align_tabs fuel indent st) = if indent =? 0 then o_col st else up8 (o_col st + indent).
Proof.
  induction fuel as [|fuel IH]; intros indent st H; destruct indent as [|i]; try lia; try reflexivity.
  cbn [align_tabs]. rewrite IH by (rewrite tab_col; pose proof (Nat.mod_upper_bound (o_col st) 8 ltac:(lia)); lia). rewrite tab_col. change (S i =? 0) with false. cbv iota.
  set (c := o_col st). pose proof (Nat.mod_upper_bound c 8 ltac:(lia)) as U. pose proof (next_stop c) as N. set (c' := c + (8 - c mod 8)) in *.
  destruct (Nat.eqb_spec (S i - (c' - c)) 0) as [Z|Z].
  - symmetry. apply up8_unique; [|exact N]. unfold c' in *. lia.
  - f_equal. lia.
Qed.
Lemma end_col_eq : forall a c st, end_col a c st = (if a_tabs a then (if a_indent a =? 0 then c else up8 (c + a_indent a)) else c + a_indent a) + a_spaces a.
Proof.
  intros [i s t] c st. unfold end_col, exec_align. cbn [a_indent a_spaces a_tabs]. destruct t.
  - rewrite spaces_col, align_tabs_col by lia. reflexivity.
  - rewrite spaces_col. cbn [set_col o_col]. lia.
Qed.

(** ** The columns of a ruler. *)
Definition lens (rc : column) : list (nat * nat) := List.map (fun d => (rd_len d, rd_nspaces d)) (rc_datums rc).
Record col_ok (rc : column) : Prop := {
  ck_len : forall d, In d (rc_datums rc) -> rd_len d <= rc_len rc;
  ck_empty : rc_datums rc = [] -> rc_len rc = 0;
  ck_max : rc_datums rc <> [] -> exists d, In d (rc_datums rc) /\ rd_len d = rc_len rc;
  ck_nsp : forall d, In d (rc_datums rc) -> rd_nspaces d <= rc_nspaces rc;
  ck_att : rc_nspaces rc = 0 \/ exists d, In d (rc_datums rc) /\ rd_nspaces d = rc_nspaces rc
}.
Lemma insert_ok : forall tk len nsp rc, col_ok rc -> col_ok (col_insert tk len nsp rc).
Proof.
  intros tk len nsp rc [A E B C G]. constructor; cbn [col_insert rc_datums rc_len rc_nspaces].
  - intros d H. apply in_app_or in H. destruct (Nat.ltb_spec (rc_len rc) len); destruct H as [H|[<-|[]]]; try (specialize (A d H)); cbn [rd_len]; lia.
  - intros H. destruct (rc_datums rc); discriminate.
  - intros _. destruct (Nat.ltb_spec (rc_len rc) len).
    + exists (Datum tk len nsp). split; [apply in_or_app; right; left; reflexivity|reflexivity].
    + destruct (rc_datums rc) as [|d ds] eqn:ED.
      * exists (Datum tk len nsp). split; [left; reflexivity|]. cbn [rd_len]. rewrite E in * by reflexivity. lia.
      * destruct (B ltac:(discriminate)) as (d' & D1 & D2). exists d'. split; [apply in_or_app; left; exact D1|exact D2].
  - intros d H. apply in_app_or in H. destruct (Nat.ltb_spec (rc_nspaces rc) nsp); destruct H as [H|[<-|[]]]; try (specialize (C d H)); cbn [rd_nspaces]; lia.
  - destruct (Nat.ltb_spec (rc_nspaces rc) nsp).
    + right. exists (Datum tk len nsp). split; [apply in_or_app; right; left; reflexivity|reflexivity].
    + destruct G as [G|(d & G1 & G2)]; [left; exact G|right; exists d]. split; [apply in_or_app; left; exact G1|exact G2].
Qed.
Lemma column0_ok : col_ok column0.
Proof. constructor; cbn; intros; try contradiction; auto. Qed.

Lemma nth_upd : forall A (l : list A) i f j, nth_error (upd l i f) j = if j =? i then option_map f (nth_error l j) else nth_error l j.
Proof. intros A. induction l as [|x l IH]; intros i f j; [destruct j, i; cbn; try destruct (_ =? _); reflexivity|]. destruct i as [|i], j as [|j]; cbn [upd nth_error Nat.eqb]; auto. Qed.
Lemma upd_length : forall A (l : list A) i f, length (upd l i f) = length l.
Proof. intros A. induction l as [|x l IH]; intros [|i] f; cbn; auto. Qed.

Fixpoint marks (k : nat) (l : list (nat * bool)) (ops : list op) : list (nat * bool) :=
  match ops with
  | [] => l
  | Insert _ col _ _ :: r => marks (if col =? 1 then S k else k) l r
  | AddIndent s :: r => marks k (if k =? 0 then l else l ++ [(k - 1, s)]) r
  | DropIndent :: r => marks k (removelast l) r
  end.

Record inv (done : list op) (rl : ruler) : Prop := {
  iv_n : length (rl_columns rl) = ncols done;
  iv_col : forall i rc, nth_error (rl_columns rl) i = Some rc -> lens rc = entries (S i) done /\ col_ok rc /\ rc_datums rc <> [] /\
    (forall d, In d (rc_datums rc) -> exists col len nsp, In (Insert (rd_tk d) col len nsp) done);
  iv_ind : match rl_indent rl with
           | None => marks 0 [] done = []
           | Some l => List.map (fun ri => (ri_rd ri, ri_sign ri)) l = marks 0 [] done /\ (exists s, In (AddIndent s) done) /\ 1 <= ncols done /\
                       (forall ri, In ri l -> ri_rd ri < length (entries 1 done))
           end
}.
Lemma ncols_app : forall a b, ncols (a ++ b) = Nat.max (ncols a) (ncols b).
Proof. induction a as [|[tk c l n|s|] a IH]; intros b; cbn [app ncols]; rewrite ?IH; auto. lia. Qed.
Lemma entries_app : forall c a b, entries c (a ++ b) = entries c a ++ entries c b.
Proof. intros. unfold entries. apply flat_map_app. Qed.
Lemma marks_app : forall a b k l, marks k l (a ++ b) = marks (k + length (entries 1 a)) (marks k l a) b.
Proof.
  induction a as [|[tk c l0 n|s|] a IH]; intros b k l; cbn [app marks].
  - cbn. rewrite Nat.add_0_r. reflexivity.
  - rewrite IH. f_equal. unfold entries at 2. cbn [flat_map]. fold (entries 1 a). rewrite app_length. destruct (c =? 1); cbn [length]; lia.
  - rewrite IH. reflexivity.
  - rewrite IH. reflexivity.
Qed.
Lemma entries_out : forall ops c, ncols ops < c -> entries c ops = [].
Proof.
  induction ops as [|[tk c l n|s|] ops IH]; intros c0 H; cbn [ncols] in H; [reflexivity| | |].
  - unfold entries. cbn [flat_map]. fold (entries c0 ops). rewrite IH by lia. destruct (Nat.eqb_spec c c0); [lia|reflexivity].
  - apply IH. exact H.
  - apply IH. exact H.
Qed.
Lemma map_removelast : forall A B (f : A -> B) l, List.map f (removelast l) = removelast (List.map f l).
Proof. intros A B f. induction l as [|x l IH]; [reflexivity|]. cbn [removelast List.map]. destruct l as [|y l]; [reflexivity|]. cbn [List.map] in *. f_equal. exact IH. Qed.
Lemma removelast_in : forall A (l : list A) x, In x (removelast l) -> In x l.
Proof. intros A. induction l as [|y l IH]; intros x H; [exact H|]. cbn [removelast] in H. destruct l as [|z l]; [destruct H|]. destruct H as [<-|H]; [left; reflexivity|right; apply IH; exact H]. Qed.

Lemma run_inv : forall ops done rl, inv done rl -> in_order (ncols done) ops -> exists rl', run ops rl = Some rl' /\ inv (done ++ ops) rl' /\ rl_align rl' = rl_align rl /\ rl_flags rl' = rl_flags rl.
Proof.
  induction ops as [|o ops IH]; intros done rl I O; [exists rl; rewrite app_nil_r; auto|].
  replace (done ++ o :: ops) with ((done ++ [o]) ++ ops) by (rewrite <- app_assoc; reflexivity). destruct o as [tk col len nsp|s|]; cbn [run in_order] in *.
  - destruct O as [O1 O2]. unfold ruler_insert. destruct (Nat.eqb_spec col 0); [lia|]. destruct I as [I1 I2 I3].
    set (cols := rl_columns rl ++ repeat column0 (col - length (rl_columns rl))). set (rl1 := Ruler (upd cols (col - 1) (col_insert tk len nsp)) (rl_indent rl) (rl_align rl) (rl_flags rl)).
    assert (NC : ncols (done ++ [Insert tk col len nsp]) = Nat.max (ncols done) col) by (rewrite ncols_app; cbn [ncols]; lia).
    assert (LC : length cols = Nat.max (ncols done) col) by (unfold cols; rewrite app_length, repeat_length; lia).
    destruct (IH (done ++ [Insert tk col len nsp]) rl1) as (rl' & R1 & R2 & R3); [|rewrite NC; exact O2|exists rl'; auto].
    constructor; cbn [rl1 rl_columns rl_indent].
    + rewrite upd_length, LC, NC. reflexivity.
    + intros i rc H. rewrite nth_upd in H.
      assert (OLD : forall rc0, nth_error cols i = Some rc0 -> lens rc0 = entries (S i) done /\ col_ok rc0 /\ (i <> col - 1 -> rc_datums rc0 <> []) /\ (forall d, In d (rc_datums rc0) -> exists col len nsp, In (Insert (rd_tk d) col len nsp) done)).
      { intros rc0 E. unfold cols in E. destruct (Nat.lt_ge_cases i (length (rl_columns rl))) as [L|L].
        - rewrite nth_error_app1 in E by exact L. destruct (I2 i rc0 E) as (A & B & C & D). auto.
        - assert (E' := E). rewrite nth_error_app2 in E by exact L. apply nth_error_In, repeat_spec in E. subst rc0. rewrite entries_out by lia. split; [reflexivity|]. split; [apply column0_ok|]. split; [|intros d []].
          intros Q. exfalso. assert (i < length cols) by (apply nth_error_Some; unfold cols; rewrite E'; discriminate). lia. }
      rewrite entries_app. unfold entries at 2. cbn [flat_map]. rewrite app_nil_r. destruct (Nat.eqb_spec i (col - 1)) as [Q|Q].
      * destruct (nth_error cols i) as [rc0|]; [|discriminate]. cbn [option_map] in H. inversion H; subst rc. destruct (OLD rc0 eq_refl) as (A & B & _ & D). destruct (Nat.eqb_spec col (S i)); [|lia].
        split; [unfold lens; cbn [col_insert rc_datums]; rewrite map_app; cbn [List.map rd_len rd_nspaces]; unfold lens in A; rewrite A; reflexivity|]. split; [apply insert_ok; exact B|]. split; [cbn [col_insert rc_datums]; destruct (rc_datums rc0); discriminate|].
        intros d Hd. cbn [col_insert rc_datums] in Hd. apply in_app_or in Hd. destruct Hd as [Hd|[<-|[]]].
        -- destruct (D d Hd) as (c' & l' & n' & Hi). exists c', l', n'. apply in_or_app. left. exact Hi.
        -- exists col, len, nsp. apply in_or_app. right. left. reflexivity.
      * destruct (OLD rc H) as (A & B & C & D). destruct (Nat.eqb_spec col (S i)); [lia|]. rewrite app_nil_r. split; [exact A|]. split; [exact B|]. split; [auto|].
        intros d Hd. destruct (D d Hd) as (c' & l' & n' & Hi). exists c', l', n'. apply in_or_app. left. exact Hi.
    + rewrite marks_app. cbn [marks]. destruct (rl_indent rl) as [l|]; [|exact I3]. destruct I3 as (A & (s & B) & C & D). split; [exact A|]. split; [exists s; apply in_or_app; left; exact B|]. split; [rewrite NC; lia|].
      intros ri Hi. rewrite entries_app, app_length. specialize (D ri Hi). lia.
  - destruct I as [I1 I2 I3]. assert (NC : ncols (done ++ [AddIndent s]) = ncols done) by (rewrite ncols_app; cbn [ncols]; lia).
    assert (EN : forall c, entries c (done ++ [AddIndent s]) = entries c done) by (intros; rewrite entries_app; cbn; apply app_nil_r).
    destruct (IH (done ++ [AddIndent s]) (ruler_indent rl s)) as (rl' & R1 & R2 & R3 & R4); [|rewrite NC; exact O|exists rl'; split; [exact R1|split; [exact R2|]]].
    2:{ unfold ruler_indent in R3, R4. destruct (rl_columns rl) as [|rc ?]; [auto|]. destruct (rc_datums rc); auto. }
    assert (C1 : rl_columns (ruler_indent rl s) = rl_columns rl) by (unfold ruler_indent; destruct (rl_columns rl) as [|rc ?] eqn:E; [exact E|]; destruct (rc_datums rc); [exact E|reflexivity]).
    constructor; rewrite ?C1.
    + rewrite NC. exact I1.
    + intros i rc H. rewrite EN. destruct (I2 i rc H) as (A & B & C & D). split; [exact A|]. split; [exact B|]. split; [exact C|]. intros d Hd. destruct (D d Hd) as (c' & l' & n' & Hi). exists c', l', n'. apply in_or_app. left. exact Hi.
    + rewrite marks_app, EN. cbn [marks Nat.add].
      unfold ruler_indent. destruct (rl_columns rl) as [|rc cols] eqn:EC.
      * cbn [length] in I1. rewrite entries_out by lia. cbn [length Nat.eqb]. rewrite ncols_app, app_nil_r || idtac. destruct (rl_indent rl) as [l|]; [|exact I3]. destruct I3 as (_ & _ & Q & _). lia.
      * destruct (I2 0 rc eq_refl) as (A & B & C & D). destruct (rc_datums rc) as [|d0 ds] eqn:ED; [congruence|]. rewrite <- ED in *. cbn [rl_indent].
        assert (LN : length (entries 1 done) = length (rc_datums rc)) by (rewrite <- A; unfold lens; apply map_length).
        assert (NZ : length (rc_datums rc) <> 0) by (destruct (rc_datums rc); [congruence|discriminate]).
        rewrite LN. destruct (Nat.eqb_spec (length (rc_datums rc)) 0); [lia|].
        split; [|split; [exists s; apply in_or_app; right; left; reflexivity|split; [rewrite NC; cbn [length] in I1; lia|]]].
        -- rewrite map_app. cbn [List.map ri_rd ri_sign]. f_equal. destruct (rl_indent rl) as [l|]; [apply I3|symmetry; exact I3].
        -- intros ri Hi. apply in_app_or in Hi. destruct Hi as [Hi|[<-|[]]]; [|cbn [ri_rd]; lia]. destruct (rl_indent rl) as [l|]; [|destruct Hi]. destruct I3 as (_ & _ & _ & Q). specialize (Q ri Hi). lia.
  - destruct I as [I1 I2 I3]. assert (NC : ncols (done ++ [DropIndent]) = ncols done) by (rewrite ncols_app; cbn [ncols]; lia).
    assert (EN : forall c, entries c (done ++ [DropIndent]) = entries c done) by (intros; rewrite entries_app; cbn; apply app_nil_r).
    destruct (IH (done ++ [DropIndent]) (ruler_indent_remove rl)) as (rl' & R1 & R2 & R3 & R4); [|rewrite NC; exact O|exists rl'; auto].
    constructor; cbn [ruler_indent_remove rl_columns rl_indent].
    + rewrite NC. exact I1.
    + intros i rc H. rewrite EN. destruct (I2 i rc H) as (A & B & C & D). split; [exact A|]. split; [exact B|]. split; [exact C|]. intros d Hd. destruct (D d Hd) as (c' & l' & n' & Hi). exists c', l', n'. apply in_or_app. left. exact Hi.
    + rewrite marks_app, EN. cbn [marks]. destruct (rl_indent rl) as [l|]; [|rewrite I3; reflexivity]. destruct I3 as (A & (s & B) & C & D).
      split; [rewrite map_removelast, A; reflexivity|]. split; [exists s; apply in_or_app; left; exact B|]. split; [rewrite NC; exact C|]. intros ri Hi. apply D. apply removelast_in. exact Hi.
Qed.
Lemma init_inv : forall al f, inv [] (ruler_init al f).
Proof. intros. constructor; cbn; auto. intros i rc H. destruct i; discriminate. Qed.

(** ** The length of a column. *)
Lemma display_line : forall s p, (forall c, In c s -> c <> TAB /\ c <> NL) -> display_col s p = p + length s.
Proof.
  induction s as [|c s IH]; intros p H; unfold display_col in *; cbn [fold_left length]; [lia|]. destruct (H c (or_introl eq_refl)) as [A B].
  rewrite IH by (intros d Hd; apply H; right; exact Hd). unfold col_step. destruct (Ascii.eqb_spec c TAB); [contradiction|]. destruct (Ascii.eqb_spec c NL); [contradiction|]. lia.
Qed.
Lemma minspaces_spec : forall rc ds m, (forall d, In d ds -> rc_len rc <= rd_len d -> exists k, minspaces rc ds m = Some k /\ k <= rc_nspaces rc - rd_nspaces d) /\
  (forall k0, m = Some k0 -> exists k, minspaces rc ds m = Some k /\ k <= k0).
Proof.
  intros rc. induction ds as [|d ds IH]; intros m; cbn [minspaces]; [split; [intros d []|intros k0 ->; eauto]|]. destruct (Nat.ltb_spec (rd_len d) (rc_len rc)) as [L|L].
  - destruct (IH m) as [A B]. split; [|exact B]. intros d' [<-|H] H'; [lia|auto].
  - set (n := rc_nspaces rc - rd_nspaces d). set (m' := match m with Some k => if n <? k then Some n else m | None => Some n end).
    destruct (IH m') as [A B]. assert (M' : exists k, m' = Some k /\ k <= n /\ forall k0, m = Some k0 -> k <= k0).
    { unfold m'. destruct m as [k|]; [destruct (Nat.ltb_spec n k)|]; eexists; (split; [reflexivity|split; [lia|intros k0 E; inversion E; lia]]). }
    destruct M' as (k & M1 & M2 & M3). destruct (B k M1) as (k' & B1 & B2). split.
    + intros d' [<-|H] H'; [exists k'; split; [exact B1|unfold n in M2; lia]|apply A; auto].
    + intros k0 E. exists k'. split; [exact B1|]. specialize (M3 k0 E). lia.
Qed.
Lemma minimize_true : forall rc, col_ok rc -> minimize rc = true -> rc_len rc mod 8 = 0 /\ 0 < rc_nspaces rc /\ forall d, In d (rc_datums rc) -> rc_len rc <= rd_len d -> rd_nspaces d = 0.
Proof.
  intros rc OK H. unfold minimize in H. destruct ((length (rc_datums rc) <? 2) || (rc_nspaces rc =? 0) || (0 <? rc_len rc mod 8)) eqn:E; [discriminate|].
  rewrite !orb_false_iff in E. destruct E as [[_ E1] E2]. apply Nat.eqb_neq in E1. apply Nat.ltb_ge in E2. split; [lia|]. split; [lia|].
  intros d Hd Hl. destruct (minspaces_spec rc (rc_datums rc) None) as [A _]. destruct (A d Hd Hl) as (k & K1 & K2). rewrite K1 in H. apply Nat.leb_le in H. pose proof (ck_nsp _ OK d Hd). lia.
Qed.

Lemma sense_spec : forall nsp len ds cno tk cno' tk', sense_loop nsp len ds cno tk = Sensed cno' tk' ->
  (cno <> 0 -> cno' = cno) /\
  (tk' = tk \/ exists d, In d ds /\ tk' = Some (rd_tk d) /\ rd_len d = len /\ colwidth (t_str (rd_tk d)) (t_cno (rd_tk d)) < cno') /\
  (tk <> None \/ (exists d, In d ds /\ rd_len d = len) -> tk' <> None).
Proof.
  intros nsp len. induction ds as [|d ds IH]; intros cno tk cno' tk' H; cbn [sense_loop] in H.
  { inversion H; subst. split; [auto|]. split; [auto|]. intros [Q|(d & [] & _)]. exact Q. }
  destruct (t_next (rd_tk d)) as [[nl nc]|]; [|discriminate]. destruct (has_comment _ || _); [discriminate|]. destruct (nc <? nsp - rd_nspaces d); [discriminate|]. set (w := nc - (nsp - rd_nspaces d)) in *.
  destruct (Nat.leb_spec w (colwidth (t_str (rd_tk d)) (t_cno (rd_tk d)))) as [|W]; [discriminate|]. destruct (negb (cno =? 0) && negb (cno =? w)) eqn:Q; [discriminate|].
  apply IH in H. destruct H as (H1 & H2 & H3). assert (CW : cno' = w) by (apply H1; lia). split; [|split].
  - intros Z. rewrite CW. apply Nat.eqb_neq in Z. rewrite Z in Q. cbn in Q. destruct (Nat.eqb_spec cno w); [auto|discriminate].
  - destruct H2 as [H2|(d1 & A & B)]; [|right; exists d1; split; [right; exact A|exact B]]. destruct (Nat.eqb_spec (rd_len d) len) as [QL|QL]; [|auto].
    right. exists d. split; [left; reflexivity|]. split; [exact H2|]. split; [exact QL|]. rewrite CW. exact W.
  - intros HH. apply H3. destruct (Nat.eqb_spec (rd_len d) len) as [QL|QL]; [left; discriminate|]. destruct HH as [HH|(d1 & [<-|A] & B)]; [auto|contradiction|right; eauto].
Qed.
Lemma redundant_zero : forall rc, col_ok rc -> rc_nspaces rc = 0 -> forall d, In d (rc_datums rc) -> rd_nspaces d = 0.
Proof. intros rc OK Z d H. pose proof (ck_nsp _ OK d H). lia. Qed.

(** All entries fit in [T], and those that take all of it are followed by spaces and end at
    a tab stop. *)
Definition fit (ds : list datum) (T N : nat) : Prop := forall d, In d ds -> rd_len d <= T /\ rd_nspaces d <= N /\ (rd_len d < T \/ T mod 8 = 0 /\ rd_nspaces d < N).
Lemma tabs_fit : forall rc, col_ok rc -> fit (rc_datums rc) (fst (column_tabs rc)) (rc_nspaces rc).
Proof.
  intros rc OK d H. pose proof (ck_len _ OK d H). pose proof (ck_nsp _ OK d H). unfold column_tabs. cbn [fst]. destruct (minimize rc) eqn:E.
  - destruct (minimize_true rc OK E) as (A & B & C). split; [lia|]. split; [lia|]. destruct (Nat.eq_dec (rd_len d) (rc_len rc)) as [Q|Q]; [right|left; lia]. rewrite (C d H) by lia. auto.
  - lia.
Qed.
Lemma alignment_fit : forall rc, col_ok rc -> rc_datums rc <> [] -> (forall d, In d (rc_datums rc) -> one_line (rd_tk d) /\ 1 <= t_cno (rd_tk d)) ->
  column_alignment rc = Some (0, rc) \/
  exists T N, column_alignment rc = Some (S T, Column (rc_datums rc) (rc_len rc) N (rc_ntabs rc)) /\ fit (rc_datums rc) (S T) N /\
    column_alignment (Column (rc_datums rc) (rc_len rc) N (rc_ntabs rc)) = Some (S T, Column (rc_datums rc) (rc_len rc) N (rc_ntabs rc)).
Proof.
  intros rc OK NE TK. unfold column_alignment at 1 2. destruct (rc_datums rc) as [|d0 ds0] eqn:ED; [congruence|]. rewrite <- ED in *.
  set (pre := if (0 <? rc_ntabs rc) && (rc_nspaces rc =? 0) then redundant (rc_datums rc) 0 else Some (rc_nspaces rc)).
  destruct pre as [nsp|] eqn:EP; [|left; reflexivity].
  assert (NS : forall d, In d (rc_datums rc) -> rd_nspaces d <= nsp).
  { intros d H. unfold pre in EP. destruct ((0 <? rc_ntabs rc) && (rc_nspaces rc =? 0)) eqn:Q.
    - apply andb_true_iff in Q. destruct Q as [_ Q]. apply Nat.eqb_eq in Q. rewrite (redundant_zero rc OK Q d H). lia.
    - inversion EP; subst. apply (ck_nsp _ OK d H). }
  assert (IDEM : (if (0 <? rc_ntabs rc) && (nsp =? 0) then redundant (rc_datums rc) 0 else Some nsp) = Some nsp).
  { destruct ((0 <? rc_ntabs rc) && (nsp =? 0)) eqn:Q; [|reflexivity]. apply andb_true_iff in Q. destruct Q as [Q1 Q2]. apply Nat.eqb_eq in Q2. subst nsp. unfold pre in EP. rewrite Q1 in EP. cbn [andb] in EP. destruct (Nat.eqb_spec (rc_nspaces rc) 0) as [Z|Z]; [exact EP|]. inversion EP. congruence. }
  destruct (sense_loop nsp (rc_len rc) (rc_datums rc) 0 None) as [|cno tk] eqn:ES; [left; reflexivity|].
  destruct (sense_spec _ _ _ _ _ _ _ ES) as (_ & S2 & S3). assert (TN : tk <> None) by (apply S3; right; apply (ck_max _ OK NE)).
  destruct S2 as [S2|(d & D1 & D2 & D3 & D4)]; [congruence|]. subst tk. destruct (TK d D1) as [OL C1]. rewrite colwidth_spec in D4 by exact C1. rewrite display_line in D4 by exact OL. 
  assert (W : strwidth (t_str (rd_tk d)) (t_cno (rd_tk d)) = t_cno (rd_tk d) + length (t_str (rd_tk d))) by (rewrite strwidth_spec; apply display_line; exact OL).
  rewrite W. destruct (Nat.ltb_spec (rc_len rc + cno) (t_cno (rd_tk d) + length (t_str (rd_tk d)))); [lia|]. right.
  exists (rc_len rc + cno - (t_cno (rd_tk d) + length (t_str (rd_tk d))) - 1), nsp. 
  replace (S (rc_len rc + cno - (t_cno (rd_tk d) + length (t_str (rd_tk d))) - 1)) with (rc_len rc + cno - (t_cno (rd_tk d) + length (t_str (rd_tk d)))) by lia.
  split; [reflexivity|]. split.
  - intros d' H'. pose proof (ck_len _ OK d' H'). specialize (NS d' H'). lia.
  - unfold column_alignment. cbn [rc_datums rc_len rc_nspaces rc_ntabs]. rewrite ED. rewrite <- ED. rewrite IDEM, ES, W. destruct (Nat.ltb_spec (rc_len rc + cno) (t_cno (rd_tk d) + length (t_str (rd_tk d)))); [lia|]. reflexivity.
Qed.

(** ** Sensing alignment. *)
(** The blanks behind an entry that is followed by tabs: tabs and then [k] spaces. *)
Definition optional_space (u : suffix) : Prop := u_type u = SSpace /\ u_opt u = true.
Definition blank (d : datum) (s : bytes) : Prop :=
  (exists u r, In u (t_suf (rd_tk d)) /\ optional_space u /\ u_str u = TAB :: r) /\
  (exists p u q, t_suf (rd_tk d) = p ++ u :: q /\ Forall (fun v => ~ optional_space v) p /\ optional_space u /\ u_str u = s).
Lemma is_space_iff : forall u, is_space u = true <-> optional_space u.
Proof. intros [[] o s]; unfold is_space, optional_space; cbn; intuition discriminate. Qed.
Lemma blank_iff : forall d s, blank d s <-> has_tabs (rd_tk d) = true /\ exists u, find_spaces (rd_tk d) = Some u /\ u_str u = s.
Proof.
  intros d s. unfold blank, has_tabs, find_spaces.
  assert (A : existsb (fun u => is_space u && (hd NUL (u_str u) =c TAB)) (t_suf (rd_tk d)) = true <-> exists u r, In u (t_suf (rd_tk d)) /\ optional_space u /\ u_str u = TAB :: r).
  { rewrite existsb_exists. split.
    - intros (u & H1 & H2). apply andb_true_iff in H2. destruct H2 as [H2 H3]. apply is_space_iff in H2. apply Ascii.eqb_eq in H3. destruct (u_str u) as [|c r] eqn:E; [discriminate H3|]. cbn in H3. subst c. exists u, r. rewrite E. auto.
    - intros (u & r & H1 & H2 & H3). exists u. split; [exact H1|]. apply andb_true_iff. split; [apply is_space_iff; exact H2|]. rewrite H3. reflexivity. }
  rewrite A. apply and_iff_compat_l. generalize (t_suf (rd_tk d)) as l. induction l as [|v l IH]; cbn [find].
  - split; [intros (p & u & q & H & _); destruct p; discriminate|intros (u & H & _); discriminate].
  - destruct (is_space v) eqn:V.
    + apply is_space_iff in V. split.
      * intros (p & u & q & H & F & U & S). destruct p as [|w p]; injection H as -> H; [exists u; auto|]. inversion F; contradiction.
      * intros (u & H & S). injection H as <-. exists [], v, l. auto.
    + assert (NV : ~ optional_space v) by (rewrite <- is_space_iff, V; discriminate). rewrite <- IH. split.
      * intros (p & u & q & H & F & U & S). destruct p as [|w p]; injection H as -> H; [contradiction|]. inversion F; subst. exists p, u, q. auto.
      * intros (p & u & q & H & F & U & S). exists (v :: p), u, q. rewrite H. auto.
Qed.
Definition tabs_spaces (s : bytes) (k : nat) : Prop := exists i, s = repeat TAB i ++ repeat SP k.
(** The spaces behind the entries of a column: as counted when inserted or, if there are none
    and tabs are used, the most spaces found behind tabs. *)
Definition column_spaces (rc : column) (n : nat) : Prop :=
  if (0 <? rc_ntabs rc) && (rc_nspaces rc =? 0) then
    (forall d s, In d (rc_datums rc) -> blank d s -> exists k, tabs_spaces s k /\ k <= n) /\
    (n = 0 \/ exists d s, In d (rc_datums rc) /\ blank d s /\ tabs_spaces s n)
  else n = rc_nspaces rc.
(** What follows the entry is on the same line, without a comment between, and at the column [c]
    past the spaces it is given. *)
Definition aligned_at (n c : nat) (d : datum) : Prop :=
  has_comment (rd_tk d) = false /\ t_next (rd_tk d) = Some (t_lno (rd_tk d), c + (n - rd_nspaces d)) /\ colwidth (t_str (rd_tk d)) (t_cno (rd_tk d)) < c.

Lemma countspaces_spec : forall s k, countspaces s = Some k <-> tabs_spaces s k.
Proof.
  assert (SPA : forall r, span_len (fun c => c =c SP) r = length r <-> r = repeat SP (length r)).
  { induction r as [|c r IH]; [split; reflexivity|]. cbn [span_len length repeat]. destruct (Ascii.eqb_spec c SP) as [->|N].
    - split; intros H; [f_equal; apply IH; lia|f_equal; apply IH; congruence].
    - split; intros H; [discriminate|]. injection H as H _. contradiction. }
  induction s as [|c s IH]; intros k.
  - unfold countspaces. cbn. split; [intros H; injection H as <-; exists 0; reflexivity|]. intros (i & H). destruct i; [|discriminate]. destruct k; [reflexivity|discriminate].
  - destruct (Ascii.eqb_spec c TAB) as [->|N].
    + assert (E : countspaces (TAB :: s) = countspaces s) by reflexivity. rewrite E, IH. split; intros (i & H).
      * exists (S i). rewrite H. reflexivity.
      * destruct i as [|i]; [destruct k; discriminate|]. injection H as H. exists i. exact H.
    + unfold countspaces. cbn [span_len]. destruct (Ascii.eqb_spec c TAB); [contradiction|]. cbn [skipn]. specialize (SPA (c :: s)). destruct (Nat.eqb_spec (span_len (fun c0 => c0 =c SP) (c :: s)) (length (c :: s))) as [Q|Q].
      * rewrite Q. split; [intros H; assert (K : k = length (c :: s)) by congruence; exists 0; rewrite K; apply SPA; exact Q|]. intros (i & H). destruct i; [|injection H as H _; contradiction]. change (c :: s = repeat SP k) in H. rewrite H, repeat_length. reflexivity.
      * split; [discriminate|]. intros (i & H). destruct i; [|injection H as H _; contradiction]. change (c :: s = repeat SP k) in H. exfalso. apply Q. apply SPA. rewrite H, repeat_length. reflexivity.
Qed.
Lemma tabs_spaces_det : forall s k k', tabs_spaces s k -> tabs_spaces s k' -> k = k'.
Proof. intros s k k' H H'. apply countspaces_spec in H. apply countspaces_spec in H'. congruence. Qed.
Lemma redundant_spec : forall ds n0 n, redundant ds n0 = Some n <->
  n0 <= n /\ (forall d s, In d ds -> blank d s -> exists k, tabs_spaces s k /\ k <= n) /\ (n = n0 \/ exists d s, In d ds /\ blank d s /\ tabs_spaces s n).
Proof.
  induction ds as [|d ds IH]; intros n0 n; cbn [redundant].
  { split; [intros H; injection H as <-; split; [lia|split; [intros d s []|auto]]|]. intros (_ & _ & [->|(d & s & [] & _)]). reflexivity. }
  assert (SK : (forall s, ~ blank d s) -> redundant ds n0 = Some n <-> n0 <= n /\ (forall d0 s, In d0 (d :: ds) -> blank d0 s -> exists k, tabs_spaces s k /\ k <= n) /\ (n = n0 \/ exists d0 s, In d0 (d :: ds) /\ blank d0 s /\ tabs_spaces s n)).
  { intros NB. rewrite IH. split; intros (A & B & C).
    - split; [exact A|]. split; [intros d0 s [<-|H] Hb; [exfalso; exact (NB s Hb)|eauto]|]. destruct C as [C|(d0 & s & C1 & C2)]; [left; exact C|right; exists d0, s; split; [right; exact C1|exact C2]].
    - split; [exact A|]. split; [intros d0 s H Hb; apply (B d0 s); [right; exact H|exact Hb]|]. destruct C as [C|(d0 & s & [<-|C1] & C2 & C3)]; [left; exact C|exfalso; exact (NB s C2)|right; exists d0, s; auto]. }
  destruct (has_tabs (rd_tk d)) eqn:HT; cbn [negb]; [|apply SK; intros s Q; apply blank_iff in Q; destruct Q as [Q _]; congruence].
  destruct (find_spaces (rd_tk d)) as [u|] eqn:FS; [|apply SK; intros s Q0; apply blank_iff in Q0; destruct Q0 as (_ & u & Q & _); congruence].
  assert (BL : blank d (u_str u)) by (apply blank_iff; split; [exact HT|exists u; auto]). assert (BU : forall s, blank d s -> s = u_str u) by (intros s Q0; apply blank_iff in Q0; destruct Q0 as (_ & u' & Q & <-); congruence).
  destruct (countspaces (u_str u)) as [k|] eqn:CS.
  - assert (TS := proj1 (countspaces_spec _ _) CS). rewrite IH. assert (MX : (if n0 <? k then k else n0) = Nat.max n0 k) by (destruct (Nat.ltb_spec n0 k); lia). rewrite MX. split; intros (A & B & C).
    + split; [lia|]. split.
      * intros d0 s [<-|H] Hb; [rewrite (BU s Hb); exists k; split; [exact TS|lia]|eauto].
      * destruct C as [C|(d0 & s & C1 & C2)]; [|right; exists d0, s; split; [right; exact C1|exact C2]]. destruct (Nat.le_gt_cases k n0); [left; lia|]. right. exists d, (u_str u). split; [left; reflexivity|]. split; [exact BL|]. replace n with k by lia. exact TS.
    + destruct (B d (u_str u) (or_introl eq_refl) BL) as (k' & T' & L'). rewrite (tabs_spaces_det _ _ _ T' TS) in L'. split; [lia|]. split; [intros d0 s H Hb; apply (B d0 s); [right; exact H|exact Hb]|].
      destruct C as [C|(d0 & s & [<-|C1] & C2 & C3)]; [left; lia| |right; exists d0, s; auto]. rewrite (BU s C2) in C3. rewrite (tabs_spaces_det _ _ _ C3 TS) in *. left. lia.
  - split; [discriminate|]. intros (_ & B & _). destruct (B d (u_str u) (or_introl eq_refl) BL) as (k & T & _). apply countspaces_spec in T. congruence.
Qed.
Lemma sense_iff : forall nsp len ds cno tk c, (exists tk', sense_loop nsp len ds cno tk = Sensed c tk') <-> (ds = [] /\ c = cno \/ ds <> [] /\ (cno = 0 \/ c = cno) /\ forall d, In d ds -> aligned_at nsp c d).
Proof.
  intros nsp len. induction ds as [|d ds IH]; intros cno tk c; cbn [sense_loop].
  { split; [intros (tk' & H); injection H as -> ->; auto|]. intros [[_ ->]|[H _]]; [eauto|congruence]. }
  split.
  - intros (tk' & H). right. split; [discriminate|]. destruct (t_next (rd_tk d)) as [[nl nc]|] eqn:N; [|discriminate]. destruct (has_comment (rd_tk d)) eqn:HC; [discriminate|]. cbn [orb] in H. destruct (Nat.eqb_spec (t_lno (rd_tk d)) nl) as [<-|]; [|discriminate]. cbn [negb] in H.
    destruct (Nat.ltb_spec nc (nsp - rd_nspaces d)); [discriminate|]. destruct (Nat.leb_spec (nc - (nsp - rd_nspaces d)) (colwidth (t_str (rd_tk d)) (t_cno (rd_tk d)))); [discriminate|]. destruct (negb (cno =? 0) && negb (cno =? nc - (nsp - rd_nspaces d))) eqn:Q; [discriminate|].
    assert (I := proj1 (IH _ _ _) (ex_intro _ tk' H)). assert (C : c = nc - (nsp - rd_nspaces d)) by (destruct I as [[_ I]|(_ & [I|I] & _)]; lia).
    split; [destruct (Nat.eqb_spec cno 0); [auto|]; destruct (Nat.eqb_spec cno (nc - (nsp - rd_nspaces d))); [right; lia|discriminate]|].
    intros d0 [<-|Hd]; [|destruct I as [[-> _]|(_ & _ & I)]; [destruct Hd|auto]]. split; [exact HC|]. split; [rewrite N; f_equal; f_equal; lia|lia].
  - intros [[H _]|(_ & CN & A)]; [discriminate|]. destruct (A d (or_introl eq_refl)) as (HC & N & W). rewrite N, HC, Nat.eqb_refl. cbn [negb orb]. destruct (Nat.ltb_spec (c + (nsp - rd_nspaces d)) (nsp - rd_nspaces d)); [lia|]. replace (c + (nsp - rd_nspaces d) - (nsp - rd_nspaces d)) with c by lia. destruct (Nat.leb_spec c (colwidth (t_str (rd_tk d)) (t_cno (rd_tk d)))); [lia|].
    assert (Q : negb (cno =? 0) && negb (cno =? c) = false) by (destruct CN as [->| ->]; [reflexivity|rewrite Nat.eqb_refl; apply andb_false_r]). rewrite Q. apply IH. destruct ds as [|d1 ds1]; [left; auto|]. right. split; [discriminate|]. split; [auto|]. intros d0 Hd. apply A. right. exact Hd.
Qed.
(** A column counts as aligned exactly if the source is: the common column then decides its
    width. *)
Theorem C30_sense : forall rc, col_ok rc -> rc_datums rc <> [] -> (forall d, In d (rc_datums rc) -> one_line (rd_tk d) /\ 1 <= t_cno (rd_tk d)) ->
  ((exists T rc', column_alignment rc = Some (S T, rc')) <-> exists n c, column_spaces rc n /\ forall d, In d (rc_datums rc) -> aligned_at n c d) /\
  (forall T rc', column_alignment rc = Some (S T, rc') -> exists n c d, column_spaces rc n /\ rc' = Column (rc_datums rc) (rc_len rc) n (rc_ntabs rc) /\ (forall d, In d (rc_datums rc) -> aligned_at n c d) /\
    In d (rc_datums rc) /\ rd_len d = rc_len rc /\ t_cno (rd_tk d) + length (t_str (rd_tk d)) + S T = rc_len rc + c).
Proof.
  intros rc OK NE TK.
  set (pre := if (0 <? rc_ntabs rc) && (rc_nspaces rc =? 0) then redundant (rc_datums rc) 0 else Some (rc_nspaces rc)).
  assert (PS : forall n, pre = Some n <-> column_spaces rc n).
  { intros n. unfold pre, column_spaces. destruct ((0 <? rc_ntabs rc) && (rc_nspaces rc =? 0)); [|split; [congruence|intros ->; reflexivity]]. rewrite redundant_spec. split; [intros (_ & B & C); auto|]. intros (B & C). split; [lia|auto]. }
  assert (CA : column_alignment rc = match pre with None => Some (0, rc) | Some nsp => match sense_loop nsp (rc_len rc) (rc_datums rc) 0 None with NoAlign => Some (0, rc) | Sensed _ None => None | Sensed cno (Some tk) =>
      if rc_len rc + cno <? strwidth (t_str tk) (t_cno tk) then None else Some (rc_len rc + cno - strwidth (t_str tk) (t_cno tk), Column (rc_datums rc) (rc_len rc) nsp (rc_ntabs rc)) end end).
  { unfold column_alignment. fold pre. destruct (rc_datums rc); [congruence|reflexivity]. }
  assert (FW : forall T rc', column_alignment rc = Some (S T, rc') -> exists n c d, column_spaces rc n /\ rc' = Column (rc_datums rc) (rc_len rc) n (rc_ntabs rc) /\ (forall d, In d (rc_datums rc) -> aligned_at n c d) /\
    In d (rc_datums rc) /\ rd_len d = rc_len rc /\ t_cno (rd_tk d) + length (t_str (rd_tk d)) + S T = rc_len rc + c).
  { intros T rc' H. rewrite CA in H. destruct pre as [n|] eqn:EP; [|discriminate]. destruct (sense_loop n (rc_len rc) (rc_datums rc) 0 None) as [|c tk] eqn:ES; [discriminate|]. destruct (sense_spec _ _ _ _ _ _ _ ES) as (_ & [S2|(d & D1 & D2 & D3 & _)] & S3); [rewrite S2 in H; discriminate|]. subst tk.
    assert (W : strwidth (t_str (rd_tk d)) (t_cno (rd_tk d)) = t_cno (rd_tk d) + length (t_str (rd_tk d))) by (rewrite strwidth_spec; apply display_line; apply (TK d D1)). rewrite W in H. destruct (Nat.ltb_spec (rc_len rc + c) (t_cno (rd_tk d) + length (t_str (rd_tk d)))); [discriminate|]. injection H as H1 H2.
    exists n, c, d. split; [apply PS; reflexivity|]. split; [congruence|]. split; [|split; [exact D1|split; [exact D3|lia]]]. destruct (proj1 (sense_iff _ _ _ _ _ _) (ex_intro _ _ ES)) as [[Q _]|(_ & _ & A)]; [congruence|exact A]. }
  split; [|exact FW]. split.
  - intros (T & rc' & H). destruct (FW _ _ H) as (n & c & d & A & _ & B & _). exists n, c. auto.
  - intros (n & c & A & B). apply PS in A. destruct (proj2 (sense_iff n (rc_len rc) (rc_datums rc) 0 None c) ltac:(right; auto)) as (tk & ES).
    destruct (alignment_fit rc OK NE TK) as [E|(T & N & E & _)]; [|exists T; eexists; exact E]. exfalso. rewrite CA, A, ES in E. destruct (sense_spec _ _ _ _ _ _ _ ES) as (_ & S2 & S3). assert (TN : tk <> None) by (apply S3; right; apply (ck_max _ OK NE)). destruct S2 as [S2|(d & D1 & D2 & D3 & D4)]; [congruence|]. subst tk.
    destruct (TK d D1) as [OL C1]. rewrite colwidth_spec in D4 by exact C1. rewrite display_line in D4 by exact OL. assert (W : strwidth (t_str (rd_tk d)) (t_cno (rd_tk d)) = t_cno (rd_tk d) + length (t_str (rd_tk d))) by (rewrite strwidth_spec; apply display_line; exact OL). rewrite W in E. destruct (Nat.ltb_spec (rc_len rc + c) (t_cno (rd_tk d) + length (t_str (rd_tk d)))); [discriminate|]. injection E as E _. lia.
Qed.

(** What a column is given in the modes in which it is sized by its entries. *)
Definition given (rl : ruler) (rc : column) (r : option (nat * bool)) (rc' : column) : Prop :=
  column_length rl rc = Some (r, rc') /\ column_length rl rc' = Some (r, rc') /\ rc_datums rc' = rc_datums rc /\
  match r with None => f_sense (rl_flags rl) = true /\ f_min (rl_flags rl) = false | Some (T, tabs) => fit (rc_datums rc) T (rc_nspaces rc') end.
Lemma length_given : forall rl rc, sized (rl_flags rl) -> some_mode (rl_flags rl) -> col_ok rc -> rc_datums rc <> [] -> (f_sense (rl_flags rl) = true -> forall d, In d (rc_datums rc) -> one_line (rd_tk d) /\ 1 <= t_cno (rd_tk d)) ->
  exists r rc', given rl rc r rc'.
Proof.
  intros rl rc [M F] SM OK NE TK. unfold given, column_length. unfold some_mode in SM. rewrite M, F in *. cbn [orb] in *. destruct (f_min (rl_flags rl)).
  { exists (Some (S (rc_len rc), f_tabs (rl_flags rl))), rc. split; [reflexivity|]. split; [reflexivity|]. split; [reflexivity|]. intros d H. pose proof (ck_len _ OK d H). pose proof (ck_nsp _ OK d H). lia. }
  pose proof (tabs_fit rc OK) as TABS. cbn [orb] in SM. destruct (f_sense (rl_flags rl)).
  - destruct (alignment_fit rc OK NE (TK eq_refl)) as [E|(T & N & E & Ft & E2)].
    + rewrite E. destruct ((0 <? rc_ntabs rc) && (length (rc_datums rc) / 4 <=? rc_ntabs rc)) eqn:Q.
      * exists (Some (column_tabs rc)), rc. split; [reflexivity|]. split; [rewrite E, Q; reflexivity|]. split; [reflexivity|]. exact TABS.
      * exists None, rc. split; [reflexivity|]. split; [rewrite E, Q; reflexivity|]. auto.
    + rewrite E. exists (Some (S T, 0 <? rc_ntabs rc)), (Column (rc_datums rc) (rc_len rc) N (rc_ntabs rc)). cbn [rc_ntabs rc_datums rc_nspaces]. split; [reflexivity|]. split; [rewrite E2; reflexivity|]. split; [reflexivity|]. exact Ft.
  - destruct (f_tabs (rl_flags rl)); [|discriminate]. exists (Some (column_tabs rc)), rc. split; [reflexivity|]. split; [reflexivity|]. split; [reflexivity|]. exact TABS.
Qed.
Lemma opt_map_all : forall A B (f : A -> option B) g l, (forall x, In x l -> f x = Some (g x)) -> opt_map f l = Some (List.map g l).
Proof. intros A B f g. induction l as [|x l IH]; intros H; [reflexivity|]. cbn [opt_map List.map]. rewrite (H x (or_introl eq_refl)), IH by (intros y Hy; apply H; right; exact Hy). reflexivity. Qed.
Definition sized_align (r : option (nat * bool)) (rc' : column) (d : datum) : align :=
  match r with None => AlignV 1 0 false | Some (T, tabs) => AlignV (T - rd_len d) (rc_nspaces rc' - rd_nspaces d) tabs end.
Lemma exec_given : forall rl rc r rc', sized (rl_flags rl) -> given rl rc r rc' -> exec_column rl rc = Some (List.map (sized_align r rc') (rc_datums rc), rc').
Proof.
  intros rl rc r rc' [M F] (G1 & G2 & G3 & G4). unfold exec_column. rewrite G1. destruct r as [[T tabs]|]; rewrite G3.
  - rewrite (opt_map_all _ _ _ (sized_align (Some (T, tabs)) rc')); [reflexivity|]. intros d H. destruct (G4 d H) as (A & B & C). unfold align_datum. rewrite F. destruct (Nat.ltb_spec T (rd_len d)); [lia|reflexivity].
  - reflexivity.
Qed.

(** Where an entry of a sized column ends. *)
Definition stop (r : option (nat * bool)) : nat := match r with Some (T, true) => up8 T | Some (T, false) => T | None => 0 end.
Lemma sized_end : forall rl rc r rc' d base st T tabs, given rl rc r rc' -> r = Some (T, tabs) -> In d (rc_datums rc) -> base mod 8 = 0 ->
  end_col (sized_align r rc' d) (base + rd_len d) st = base + stop r + (rc_nspaces rc' - rd_nspaces d) /\ rd_nspaces d <= rc_nspaces rc' /\ base + rd_len d < end_col (sized_align r rc' d) (base + rd_len d) st.
Proof.
  intros rl rc r rc' d base st T tabs (G1 & G2 & G3 & G4) -> H B. destruct (G4 d H) as (A1 & A2 & A3). rewrite end_col_eq. cbn [sized_align a_indent a_spaces a_tabs stop]. destruct (up8_spec T) as [U1 U2]. destruct tabs.
  - destruct (Nat.eqb_spec (T - rd_len d) 0) as [Z|Z].
    + assert (Q : up8 T = T) by (apply up8_unique; [lia|]; destruct A3 as [A3|[A3 _]]; [lia|exact A3]). rewrite Q. lia.
    + replace (base + rd_len d + (T - rd_len d)) with (base + T) by lia. rewrite up8_base by exact B. lia.
  - lia.
Qed.

Lemma opt_map_nth : forall A B (f : A -> option B) l l', opt_map f l = Some l' -> length l' = length l /\ forall i x, nth_error l i = Some x -> exists y, nth_error l' i = Some y /\ f x = Some y.
Proof.
  intros A B f. induction l as [|x l IH]; intros l' H; cbn [opt_map] in H; [inversion H; split; [reflexivity|intros i x E; destruct i; discriminate]|].
  destruct (f x) as [y|] eqn:E; [|discriminate]. destruct (opt_map f l) as [ys|]; [|discriminate]. inversion H; subst. destruct (IH ys eq_refl) as [A1 A2]. split; [cbn; lia|]. intros [|i] z Hz; [inversion Hz; subst; exists y; auto|apply A2; exact Hz].
Qed.
Lemma opt_map_some : forall A B (f : A -> option B) l, (forall x, In x l -> exists y, f x = Some y) -> exists l', opt_map f l = Some l'.
Proof. intros A B f. induction l as [|x l IH]; intros H; [exists []; reflexivity|]. cbn [opt_map]. destruct (H x (or_introl eq_refl)) as (y & ->). destruct IH as (ys & ->); [intros z Hz; apply H; right; exact Hz|]. eauto. Qed.

(** ** The theorems. *)
Record uses (f : rflags) (ops : list op) : Prop := {
  us_order : in_order 0 ops;
  us_tok : f_sense f = true -> tokens_ok ops;
  us_ind : no_indents ops \/ ncols ops <= 1
}.
Definition sgn (s : bool) (n : nat) : Z := if s then Z.of_nat n else (- Z.of_nat n)%Z.
(** Columns sized by their entries (minimal, tabs, sensed): nothing fails; every column is
    either left alone, if its alignment in the source was not consistent, or all that
    follows its entries and the stars behind them begins at the same position, whatever the tab stop the lines
    begin at, with at least one blank; and every indent that was not removed has the width that
    brings a continued line to where the text of its entry begins. *)
Theorem C30_aligned : forall f al ops, sized f -> some_mode f -> uses f ops ->
  exists rl als ins, run ops (ruler_init al f) = Some rl /\ ruler_exec rl = Some (als, ins) /\ length als = ncols ops /\
  (forall col, 1 <= col <= ncols ops -> exists as_, nth_error als (col - 1) = Some as_ /\ length as_ = length (entries col ops) /\
     (f_sense f = true /\ (forall a, In a as_ -> a = AlignV 1 0 false) \/
      exists target, forall i len nsp a, nth_error (entries col ops) i = Some (len, nsp) -> nth_error as_ i = Some a -> forall base st, base mod 8 = 0 ->
        end_col a (base + len) st + nsp = base + target /\ base + len < end_col a (base + len) st)) /\
  length ins = length (marks 0 [] ops) /\
  ((exists len nsp, In (len, nsp) (entries 1 ops) /\ 0 < len) -> forall k m s v, nth_error (marks 0 [] ops) k = Some (m, s) -> nth_error ins k = Some v ->
     exists len nsp as_ a, nth_error (entries 1 ops) m = Some (len, nsp) /\ nth_error als 0 = Some as_ /\ nth_error as_ m = Some a /\
       forall base st, base mod 8 = 0 -> v = sgn s (end_col a (base + len) st - base)).
Proof.
  intros f al ops SZ SM [U1 U2 U3]. destruct (run_inv ops [] (ruler_init al f) (init_inv al f) U1) as (rl & R & [I1 I2 I3] & RA & RF). cbn [app] in *. cbn [ruler_init rl_flags rl_align] in RA, RF. subst f.
  assert (G : forall rc, In rc (rl_columns rl) -> exists r rc', given rl rc r rc').
  { intros rc H. apply In_nth_error in H. destruct H as (i & H). destruct (I2 i rc H) as (_ & OK & NE & TK). apply length_given; auto. intros FS d Hd. destruct (TK d Hd) as (c & l & n & Hi). exact (U2 FS _ _ _ _ Hi). }
  assert (EX : exists cs, opt_map (exec_column rl) (rl_columns rl) = Some cs).
  { apply opt_map_some. intros rc H. destruct (G rc H) as (r & rc' & Gr). rewrite (exec_given _ _ _ _ SZ Gr). eauto. }
  destruct EX as (cs & EX). destruct (opt_map_nth _ _ _ _ _ EX) as [LC NC].
  assert (COL : forall i rc, nth_error (rl_columns rl) i = Some rc -> exists r rc', given rl rc r rc' /\ nth_error cs i = Some (List.map (sized_align r rc') (rc_datums rc), rc')).
  { intros i rc H. destruct (G rc (nth_error_In _ _ H)) as (r & rc' & Gr). exists r, rc'. split; [exact Gr|]. destruct (NC i rc H) as (y & Y1 & Y2). rewrite (exec_given _ _ _ _ SZ Gr) in Y2. inversion Y2; subst. exact Y1. }
  assert (IND : exists ins, exec_indent rl (List.map snd cs) = Some ins /\ length ins = length (marks 0 [] ops) /\
     ((exists len nsp, In (len, nsp) (entries 1 ops) /\ 0 < len) -> forall k m s v, nth_error (marks 0 [] ops) k = Some (m, s) -> nth_error ins k = Some v ->
     exists len nsp as_ a, nth_error (entries 1 ops) m = Some (len, nsp) /\ nth_error (List.map fst cs) 0 = Some as_ /\ nth_error as_ m = Some a /\
       forall base st, base mod 8 = 0 -> v = sgn s (end_col a (base + len) st - base))).
  { unfold exec_indent. destruct (rl_indent rl) as [l|].
    2:{ exists []. rewrite I3. split; [reflexivity|]. split; [reflexivity|]. intros _ k m s v H. destruct k; discriminate. }
    destruct I3 as (J1 & (s0 & J2) & J3 & J4). assert (N1 : ncols ops = 1) by (destruct U3 as [U3|U3]; [exfalso; apply (U3 s0 J2)|lia]).
    destruct (rl_columns rl) as [|rc [|? ?]] eqn:EC; cbn [length] in I1; try lia. destruct (COL 0 rc eq_refl) as (r & rc' & Gr & C0). destruct (I2 0 rc eq_refl) as (LE & OK & NE & TK). destruct cs as [|c0 [|? ?]]; cbn [length] in LC; try lia. cbn [nth_error] in C0. inversion C0; subst c0. cbn [List.map snd fst nth_error].
    destruct Gr as (G1 & G2 & G3 & G4). rewrite G2.
    assert (LEN : length (entries 1 ops) = length (rc_datums rc)) by (rewrite <- LE; unfold lens; apply map_length).
    set (mx := match r with None => 0 | Some (T, tabs) => if tabs then (T + 7) - (T + 7) mod 8 else T end).
    assert (EQ : (match r with None => opt_map (indent_value rc' 0) l | Some (max, tabs) => let max := if tabs then (max + 7) - (max + 7) mod 8 else max in opt_map (indent_value rc' max) l end) = opt_map (indent_value rc' mx) l) by (unfold mx; destruct r as [[T tabs]|]; reflexivity).
    assert (VAL : forall ri, In ri l -> exists d, nth_error (rc_datums rc) (ri_rd ri) = Some d /\ indent_value rc' mx ri = Some (sgn (ri_sign ri) (if 0 <? mx then mx + (rc_nspaces rc' - rd_nspaces d) else S (rd_len d)))).
    { intros ri H. specialize (J4 ri H). destruct (nth_error (rc_datums rc) (ri_rd ri)) as [d|] eqn:E; [|apply nth_error_None in E; lia]. exists d. split; [reflexivity|]. unfold indent_value. rewrite G3, E. reflexivity. }
    destruct (opt_map_some _ _ (indent_value rc' mx) l) as (ins & EI); [intros ri H; destruct (VAL ri H) as (d & _ & V); eauto|].
    exists ins. split; [destruct r as [[T tabs]|]; [change (opt_map (indent_value rc' mx) l = Some ins)|change (opt_map (indent_value rc' mx) l = Some ins)]; exact EI|].
    destruct (opt_map_nth _ _ _ _ _ EI) as [LI NI]. split; [rewrite <- J1, map_length; exact LI|].
    intros (len0 & nsp0 & POS & P0) k m s v HM HV. rewrite <- J1 in HM. rewrite nth_error_map in HM. destruct (nth_error l k) as [ri|] eqn:EL; [|discriminate]. cbn [option_map] in HM. inversion HM; subst m s. clear HM.
    destruct (NI k ri EL) as (v' & V1 & V2). rewrite HV in V1. inversion V1; subst v'. destruct (VAL ri (nth_error_In _ _ EL)) as (d & D1 & D2). rewrite D2 in V2. inversion V2; subst v. clear V1 V2.
    exists (rd_len d), (rd_nspaces d), (List.map (sized_align r rc') (rc_datums rc)), (sized_align r rc' d).
    split; [rewrite <- LE; unfold lens; rewrite nth_error_map, D1; reflexivity|]. split; [reflexivity|]. split; [rewrite nth_error_map, D1; reflexivity|].
    intros base st HB. f_equal. destruct r as [[T tabs]|].
    - destruct (sized_end rl rc (Some (T, tabs)) rc' d base st T tabs) as (E1 & E2 & E3); [split; [exact G1|]; auto|reflexivity|eapply nth_error_In; exact D1|exact HB|].
      assert (PT : 0 < T). { rewrite <- LE in POS. unfold lens in POS. apply in_map_iff in POS. destruct POS as (dd & P1 & P2). inversion P1; subst. destruct (G4 dd P2) as (Q1 & _). lia. }
      assert (MX : mx = stop (Some (T, tabs))) by (unfold mx, stop, up8; destruct tabs; reflexivity). rewrite MX. assert (PS : 0 < stop (Some (T, tabs))) by (cbn [stop]; destruct tabs; [pose proof (up8_spec T); lia|exact PT]).
      destruct (Nat.ltb_spec 0 (stop (Some (T, tabs)))); [|lia]. rewrite E1. lia.
    - unfold mx. cbn [Nat.ltb Nat.leb]. cbn [sized_align]. rewrite end_col_eq. cbn [a_tabs a_indent a_spaces]. lia. }
  destruct IND as (ins & IN1 & IN2 & IN3). exists rl, (List.map fst cs), ins. split; [exact R|]. split; [unfold ruler_exec; rewrite EX, IN1; reflexivity|]. split; [rewrite map_length, LC; exact I1|]. split; [|split; [exact IN2|exact IN3]].
  intros col HC. destruct (nth_error (rl_columns rl) (col - 1)) as [rc|] eqn:E; [|apply nth_error_None in E; lia]. destruct (COL _ _ E) as (r & rc' & Gr & CN). destruct (I2 _ _ E) as (LE & OK & NE & TK). replace (S (col - 1)) with col in LE by lia.
  exists (List.map (sized_align r rc') (rc_datums rc)). split; [rewrite nth_error_map, CN; reflexivity|]. split; [rewrite map_length, <- LE; unfold lens; rewrite map_length; reflexivity|].
  destruct r as [[T tabs]|].
  - right. exists (stop (Some (T, tabs)) + rc_nspaces rc'). intros i len nsp a H1 H2 base st HB. rewrite <- LE in H1. unfold lens in H1. rewrite nth_error_map in H1, H2. destruct (nth_error (rc_datums rc) i) as [d|] eqn:ED; [|discriminate]. cbn [option_map] in H1, H2. inversion H1; subst len nsp. inversion H2; subst a.
    destruct (sized_end rl rc (Some (T, tabs)) rc' d base st T tabs Gr eq_refl (nth_error_In _ _ ED) HB) as (E1 & E2 & E3). split; [|exact E3]. cbn [sized_align] in E1. rewrite E1. lia.
  - left. destruct Gr as (_ & _ & _ & [Q _]). split; [exact Q|]. intros a Ha. apply in_map_iff in Ha. destruct Ha as (d & <- & _). reflexivity.
Qed.

(** Bounded: entries that are too long get no padding, the others end at the bound. *)
Theorem C30_bounded : forall f al ops, f_max f = true -> f_min f = false -> f_fixed f = false -> in_order 0 ops -> no_indents ops ->
  exists rl als, run ops (ruler_init al f) = Some rl /\ ruler_exec rl = Some (als, []) /\ length als = ncols ops /\
  forall col, 1 <= col <= ncols ops -> exists as_, nth_error als (col - 1) = Some as_ /\ length as_ = length (entries col ops) /\
    exists nmax, (nmax = 0 \/ exists len, In (len, nmax) (entries col ops)) /\ forall i len nsp a, nth_error (entries col ops) i = Some (len, nsp) -> nth_error as_ i = Some a -> forall base st, base mod 8 = 0 ->
      if al <? len then end_col a (base + len) st = base + len
      else nsp <= nmax /\ (f_tabs f = false -> end_col a (base + len) st + nsp = base + al + nmax) /\
           (f_tabs f = true -> al mod 8 = 0 \/ len < al -> end_col a (base + len) st + nsp = base + up8 al + nmax).
Proof.
  intros f al ops FM FN FF U1 U3. destruct (run_inv ops [] (ruler_init al f) (init_inv al f) U1) as (rl & R & [I1 I2 I3] & RA & RF). cbn [app] in *. cbn [ruler_init rl_flags rl_align] in RA, RF. subst f.
  set (g := fun (rc : column) (d : datum) => if al <? rd_len d then AlignV 0 0 false else AlignV (al - rd_len d) (rc_nspaces rc - rd_nspaces d) (f_tabs (rl_flags rl))).
  assert (EX : opt_map (exec_column rl) (rl_columns rl) = Some (List.map (fun rc => (List.map (g rc) (rc_datums rc), rc)) (rl_columns rl))).
  { apply opt_map_all. intros rc H. unfold exec_column, column_length. rewrite FN, FM. cbn [orb]. rewrite RA. rewrite (opt_map_all _ _ _ (g rc)); [reflexivity|]. intros d _. unfold align_datum, g. rewrite FF, FM. destruct (al <? rd_len d); reflexivity. }
  exists rl, (List.map (fun rc => List.map (g rc) (rc_datums rc)) (rl_columns rl)). split; [exact R|]. split.
  { unfold ruler_exec. rewrite EX. unfold exec_indent. destruct (rl_indent rl) as [l|]; [destruct I3 as (_ & (s & J) & _); exfalso; exact (U3 s J)|]. rewrite map_map. reflexivity. }
  split; [rewrite map_length; exact I1|]. intros col HC. destruct (nth_error (rl_columns rl) (col - 1)) as [rc|] eqn:E; [|apply nth_error_None in E; lia]. destruct (I2 _ _ E) as (LE & OK & NE & _). replace (S (col - 1)) with col in LE by lia.
  exists (List.map (g rc) (rc_datums rc)). split; [rewrite nth_error_map, E; reflexivity|]. split; [rewrite map_length, <- LE; unfold lens; rewrite map_length; reflexivity|].
  exists (rc_nspaces rc). split; [destruct (ck_att _ OK) as [Q|(d & Q1 & Q2)]; [left; exact Q|right; exists (rd_len d); rewrite <- LE; unfold lens; apply in_map_iff; exists d; rewrite Q2; auto]|]. intros i len nsp a H1 H2 base st HB. rewrite <- LE in H1. unfold lens in H1. rewrite nth_error_map in H1, H2. destruct (nth_error (rc_datums rc) i) as [d|] eqn:ED; [|discriminate]. cbn [option_map] in H1, H2. inversion H1; subst len nsp. inversion H2; subst a. clear H1 H2.
  unfold g. destruct (Nat.ltb_spec al (rd_len d)) as [L|L]; rewrite end_col_eq; cbn [a_indent a_spaces a_tabs]; [lia|]. pose proof (ck_nsp _ OK d (nth_error_In _ _ ED)) as Q. split; [exact Q|]. destruct (up8_spec al) as [V1 V2]. split.
  - intros ->. lia.
  - intros -> W. destruct (Nat.eqb_spec (al - rd_len d) 0) as [Z|Z].
    + destruct W as [W|W]; [|lia]. rewrite (up8_unique al al) by (auto; lia). lia.
    + replace (base + rd_len d + (al - rd_len d)) with (base + al) by lia. rewrite up8_base by exact HB. lia.
Qed.
(** Fixed: every entry is followed by the same number of spaces. *)
Theorem C30_fixed : forall f al ops, f_fixed f = true -> f_max f = false -> f_min f = false -> in_order 0 ops -> no_indents ops ->
  exists rl als, run ops (ruler_init al f) = Some rl /\ ruler_exec rl = Some (als, []) /\ length als = ncols ops /\
  forall col, 1 <= col <= ncols ops -> exists as_, nth_error als (col - 1) = Some as_ /\ length as_ = length (entries col ops) /\
    forall a c st, In a as_ -> end_col a c st = c + al.
Proof.
  intros f al ops FF FM FN U1 U3. destruct (run_inv ops [] (ruler_init al f) (init_inv al f) U1) as (rl & R & [I1 I2 I3] & RA & RF). cbn [app] in *. cbn [ruler_init rl_flags rl_align] in RA, RF. subst f.
  assert (EX : opt_map (exec_column rl) (rl_columns rl) = Some (List.map (fun rc => (List.map (fun _ => AlignV al 0 false) (rc_datums rc), rc)) (rl_columns rl))).
  { apply opt_map_all. intros rc H. unfold exec_column, column_length. rewrite FN, FM, FF. cbn [orb]. rewrite RA. rewrite (opt_map_all _ _ _ (fun _ => AlignV al 0 false)); [reflexivity|]. intros d _. unfold align_datum. rewrite FF. reflexivity. }
  exists rl, (List.map (fun rc => List.map (fun _ => AlignV al 0 false) (rc_datums rc)) (rl_columns rl)). split; [exact R|]. split.
  { unfold ruler_exec. rewrite EX. unfold exec_indent. destruct (rl_indent rl) as [l|]; [destruct I3 as (_ & (s & J) & _); exfalso; exact (U3 s J)|]. rewrite map_map. reflexivity. }
  split; [rewrite map_length; exact I1|]. intros col HC. destruct (nth_error (rl_columns rl) (col - 1)) as [rc|] eqn:E; [|apply nth_error_None in E; lia]. destruct (I2 _ _ E) as (LE & _). replace (S (col - 1)) with col in LE by lia.
  exists (List.map (fun _ => AlignV al 0 false) (rc_datums rc)). split; [rewrite nth_error_map, E; reflexivity|]. split; [rewrite map_length, <- LE; unfold lens; rewrite map_length; reflexivity|].
  intros a c st H. apply in_map_iff in H. destruct H as (d & <- & _). rewrite end_col_eq. cbn [a_indent a_spaces a_tabs]. lia.
Qed.

(** ** Where it goes wrong. *)
Definition tok0 : rtok := RTok (s2b "x") 1 1 [] None.
Definition st0 : dstate := DSt [] BREAK 0 0 None None 0 0 0 false 0 2 0 false false 0 0 (fun _ _ => false) false.
(** Bounded by something that is not a tab stop, with tabs: an entry of exactly that width ends
    somewhere else than shorter ones. *)
Theorem C30_max_tabs_refuted : exists al ops rl a b, run ops (ruler_init al (RFlags false true false true false)) = Some rl /\ ruler_exec rl = Some ([[a; b]], []) /\
  entries 1 ops = [(71, 0); (3, 0)] /\ al = 71 /\ end_col a 71 st0 = 71 /\ end_col b 3 st0 = 72.
Proof.
  exists 71, [Insert tok0 1 71 0; Insert tok0 1 3 0]. eexists. eexists. eexists. split; [reflexivity|]. split; [reflexivity|]. split; [reflexivity|]. split; [reflexivity|]. split; reflexivity.
Qed.
(** A token that contains a tab defeats sensing: its width is computed in two ways which do not
    agree. *)
Theorem C30_tab_token_refuted : exists ops, in_order 0 ops /\ match run ops (ruler_init 0 (RFlags false false false false true)) with Some rl => ruler_exec rl = None | None => False end.
Proof. exists [Insert (RTok [TAB] 1 8 [] (Some (1, 10))) 1 1 0]. split; [cbn; lia|]. vm_compute. reflexivity. Qed.

(** "int x; char *y;" in a struct with tabs. *)
Definition tabsuf : list suffix := [Suf SSpace true [TAB]].
Definition ops30 : list op := [Insert (RTok (s2b "int") 2 9 tabsuf (Some (2, 18))) 1 3 0; Insert (RTok (s2b "unsigned") 3 9 tabsuf (Some (3, 18))) 1 8 1; AddIndent true].
Example C30_ex : exists rl als ins, run ops30 (ruler_init 0 (RFlags false false false false true)) = Some rl /\ ruler_exec rl = Some (als, ins) /\
  als = [[AlignV 6 1 true; AlignV 1 0 true]] /\ ins = [16%Z] /\ uses (rl_flags rl) ops30 /\ sized (rl_flags rl) /\ some_mode (rl_flags rl).
Proof.
  eexists. eexists. eexists. split; [reflexivity|]. split; [reflexivity|]. split; [reflexivity|]. split; [reflexivity|]. split; [|split; [split; reflexivity|reflexivity]].
  constructor.
  - cbn. lia.
  - intros _ tk col len nsp [H|[H|[H|[]]]]; inversion H; subst; (split; [|cbn; lia]); intros c Hc; cbn in Hc; intuition (subst; discriminate).
  - right. cbn. lia.
Qed.

(** The hypotheses of C30_sense hold of the column of that struct, which is aligned. *)
Definition rc30 : column := col_insert (RTok (s2b "unsigned") 3 9 tabsuf (Some (3, 18))) 8 1 (col_insert (RTok (s2b "int") 2 9 tabsuf (Some (2, 19))) 3 0 column0).
Example C30_sense_ex : col_ok rc30 /\ column_spaces rc30 1 /\ column_alignment rc30 = Some (9, rc30).
Proof.
  split; [|split; [reflexivity|vm_compute; reflexivity]]. apply insert_ok, insert_ok, column0_ok.
Qed.

Print Assumptions C30_aligned.
Print Assumptions C30_sense.
Print Assumptions C30_bounded.
Print Assumptions C30_fixed.
Print Assumptions C30_max_tabs_refuted.
Print Assumptions C30_tab_token_refuted.
