(** C68: formatting only what a diff covers. *)
From Verif Require Import Base StrModel UtilModel LexModel LexProps LinesModel LinesProps DocModel DdocModel DdocProofs DdocSpec DdocSteps DdocFinal DdocSafe.
From Verif Require DiffModel.
Open Scope nat_scope.

(** ** The table of lines *)
Lemma split_len : forall s ls, split_lines s ls -> 1 <= length ls.
Proof. destruct 1; cbn [length]; lia. Qed.
Lemma split_nl : forall s ls, split_lines s ls -> forall i l, i + 1 < length ls -> nth_error ls i = Some l -> exists p, l = p ++ [NL].
Proof.
  induction 1 as [l H|l s ls H H' IH]; intros i x Hi E; cbn [length] in Hi; [lia|].
  destruct i as [|i]; cbn [nth_error] in E; [inversion E; eauto|]. apply (IH i x); [lia|exact E].
Qed.
Lemma start_S : forall ls i l, nth_error ls i = Some l -> line_start ls (S i) = line_start ls i + length l.
Proof.
  unfold line_start. induction ls as [|x ls IH]; intros [|i] l E; cbn [nth_error] in E; try discriminate.
  - inversion E; subst. cbn. rewrite app_nil_r. reflexivity.
  - change (firstn (S (S i)) (x :: ls)) with (x :: firstn (S i) ls). change (firstn (S i) (x :: ls)) with (x :: firstn i ls). cbn [concat]. rewrite !app_length, (IH i l E). lia.
Qed.
Lemma start_lt : forall s ls, split_lines s ls -> forall a b, a < b -> b < length ls -> line_start ls a < line_start ls b.
Proof.
  intros s ls SL a b H1 H2. destruct (nth_error ls a) as [l|] eqn:E; [|apply nth_error_None in E; lia].
  destruct (split_nl _ _ SL a l) as [p P]; [lia|exact E|]. pose proof (start_S _ _ _ E) as Q. pose proof (start_mono ls (S a) b H1).
  rewrite P, app_length in Q. cbn [length] in Q. lia.
Qed.
Section Table.
Variable inp : bytes.
Variable in_diff : nat -> bool.
Variable tabs : bool.
Variable align : bytes -> option bytes.
Notation lx := (snd (tokenized inp in_diff tabs align)).
Variable ls : list bytes.
Hypothesis SL : split_lines inp ls.
Lemma t_in : forall b e, 1 <= b <= e -> e <= length ls -> exists o n, get_lines inp lx b e = LSlice o n /\ slice inp o (o + n) = concat (firstn (e - b) (skipn (b - 1) ls)).
Proof.
  intros b e H1 H2. pose proof (C54_lines inp in_diff tabs align ls b e SL) as Q. cbv zeta in Q. specialize (Q ltac:(lia) ltac:(lia)).
  destruct (get_lines inp lx b e) as [| |o n]; try discriminate. exists o, n. split; [reflexivity|]. cbn [slice_bytes] in Q. inversion Q as [Q']. rewrite Q'.
  destruct (Nat.eqb_spec e 0); [lia|reflexivity].
Qed.
Lemma t_all : forall b, 1 <= b <= length ls -> exists o n, get_lines inp lx b 0 = LSlice o n /\ slice inp o (o + n) = concat (firstn (S (length ls) - b) (skipn (b - 1) ls)).
Proof.
  intros b H1. pose proof (C54_lines inp in_diff tabs align ls b 0 SL) as Q. cbv zeta in Q. specialize (Q ltac:(lia) ltac:(lia)).
  destruct (get_lines inp lx b 0) as [| |o n]; try discriminate. exists o, n. split; [reflexivity|]. cbn [slice_bytes] in Q. inversion Q as [Q']. rewrite Q'. cbn [Nat.eqb].
  f_equal. rewrite !firstn_all2 by (rewrite skipn_length; lia). reflexivity.
Qed.
Lemma t_rev : forall b e, 1 <= e < b -> b <= length ls -> get_lines inp lx b e = LOut.
Proof.
  intros b e H1 H2. unfold get_lines. rewrite (table _ _ _ _ _ SL), map_length, seq_length.
  assert (B1 : (length ls <? b) = false) by (apply Nat.ltb_ge; lia). assert (B2 : (length ls <? e) = false) by (apply Nat.ltb_ge; lia). rewrite B1, B2. cbn [orb].
  assert (NT : forall i, i < length ls -> nth_error (List.map (line_start ls) (seq 0 (length ls))) i = Some (line_start ls i)).
  { intros i Hi. rewrite nth_error_map. rewrite (nth_error_nth' (seq 0 (length ls)) 0) by (rewrite seq_length; exact Hi). rewrite seq_nth by exact Hi. reflexivity. }
  destruct b as [|b]; [lia|]. destruct e as [|e]; [lia|]. rewrite !NT by lia. destruct (Nat.leb_spec (line_start ls b) (line_start ls e)) as [Q|Q]; [|reflexivity].
  pose proof (start_lt _ _ SL e b). lia.
Qed.
Lemma t_past : forall b, length ls < b -> get_lines inp lx b 0 = LNone.
Proof. intros b H. exact (C54_past inp in_diff tabs align ls b 0 SL (or_introl H)). Qed.
End Table.

(** ** The theorems

    The lines of the source are [ls], [in_diff], [tabs] and [align] are what the lexer is
    given; formatting a diff starts with an empty buffer and does not trim (parser.c). *)

Section Calm.
Variables (limit : nat) (usetabs : bool) (inp : bytes) (lx : lexer) (chunks : list DiffModel.chunk).
Notation exec := (x_exec1 limit usetabs false inp lx chunks).
Definition calmx (k : xstate -> xstate) : Prop := forall xs, x_bad (k xs) = x_bad xs.
Lemma indent_calm : forall v k, calmx k -> calmx (x_indent usetabs v k).
Proof. intros v k H xs. unfold x_indent. destruct (is_indent INDENT_PARENS v); [cbn [on x_bad]; rewrite H; reflexivity|]. destruct (is_indent INDENT_FORCE v); cbn [on x_bad]; rewrite H; reflexivity. Qed.
Lemma minimize1_calm : forall id ms k i, calmx k -> calmx (x_minimize1 usetabs id ms k i).
Proof. intros id ms k i H xs. unfold x_minimize1. destruct (nth_error ms i) as [[v b]|]; [|reflexivity]. rewrite (indent_calm v k H). reflexivity. Qed.
Lemma try_calm : forall id ms k sn is xs, calmx k -> x_bad (snd (x_try_all usetabs id ms k sn is xs)) = x_bad xs.
Proof.
  intros id ms k sn is. induction is as [|i r IH]; intros xs H; [reflexivity|]. cbn [x_try_all]. set (x0 := on _ xs). set (x1 := x_minimize1 usetabs id ms k i x0). set (y := set_xbad _ _).
  specialize (IH y H). destruct (x_try_all usetabs id ms k sn r y). cbn [snd] in *. rewrite IH. change (x_bad y) with (x_bad x1). unfold x1. rewrite (minimize1_calm id ms k i H). reflexivity.
Qed.
Lemma minimize_calm : forall id ms k, calmx k -> calmx (x_minimize usetabs id ms k).
Proof.
  intros id ms k H xs. unfold x_minimize. destruct (o_idx (x_st xs)); [apply minimize1_calm, H|].
  pose proof (try_calm id ms k xs (seq 0 (length ms)) xs H) as A. destruct (x_try_all _ _ _ _ _ _ _) as [ps x1]. cbn [snd] in A.
  destruct (best_of _ _); cbn [on x_bad]; [rewrite (minimize1_calm id ms k n H)|]; exact A.
Qed.
Lemma exec_calm : forall d, calmx (exec d).
Proof.
  unfold calmx. induction d as [l IH|d IH|v d IH|d IH|i s t|tk s|tk| | | | |v|v|d IH|id ms d IH|d IH|n d IH] using ddoc_ind'; intros xs.
  - cbn [x_exec1]. revert xs. induction IH as [|d l H _ IHl]; intros xs; [reflexivity|]. cbn [fold_left]. rewrite IHl, H. reflexivity.
  - cbn [x_exec1]. unfold group_enter. cbn [negb]. unfold group_leave. cbn [negb orb].
    destruct (match o_mode (x_st xs) with MUNGE => negb (o_refit (x_st xs)) | BREAK => false end); [apply IH|]. cbn [on x_bad]. rewrite IH. reflexivity.
  - exact (indent_calm v (exec d) IH xs).
  - cbn [x_exec1 on x_bad]. rewrite IH. reflexivity.
  - reflexivity.
  - cbn [x_exec1]. destruct tk; reflexivity.
  - cbn [x_exec1]. unfold x_verbatim, own_verb, diff_verbatim. cbn [andb negb orb]. destruct (x_is_mute false xs && true); [reflexivity|].
    set (b := (1 <? _) && _). unfold diff_leave. cbn [Nat.eqb]. destruct (b && _), (b || _); reflexivity.
  - cbn [x_exec1]. destruct (o_mode (x_st xs)); reflexivity.
  - cbn [x_exec1]. destruct (o_mode (x_st xs)); reflexivity.
  - reflexivity.
  - reflexivity.
  - cbn [x_exec1]. unfold x_domute, mute_leave, mute_enter. cbn [negb diff_is_mute andb]. destruct ((o_mute (x_st xs) =? 0)%Z && _), ((0 <? v)%Z || _); match goal with |- context [if (?a =? 0)%Z then on _ _ else _] => destruct (a =? 0)%Z end; reflexivity.
  - cbn [x_exec1]. unfold x_domute, mute_leave, mute_enter. cbn [negb diff_is_mute andb]. destruct ((o_mute (x_st xs) =? 0)%Z && _), ((0 <? v)%Z || _); match goal with |- context [if (?a =? 0)%Z then on _ _ else _] => destruct (a =? 0)%Z end; reflexivity.
  - cbn [x_exec1 on x_bad]. rewrite IH. reflexivity.
  - exact (minimize_calm id ms (exec d) IH xs).
  - cbn [x_exec1]. rewrite IH. reflexivity.
  - cbn [x_exec1 on x_bad]. rewrite IH. reflexivity.
Qed.
End Calm.

(** Outside of diff mode the printer is the one of C17 to C22. *)
Theorem C68_off : forall limit usetabs inp lx chunks d trim buf,
  x_exec limit usetabs false inp lx chunks d trim buf =
    (fst (doc_exec limit usetabs (erase d) trim buf), snd (doc_exec limit usetabs (erase d) trim buf), false).
Proof.
  intros. pose proof (exec_off limit usetabs inp lx chunks d (x_init buf)) as E. pose proof (exec_calm limit usetabs inp lx chunks d (x_init buf)) as B. unfold x_exec, doc_exec, diff_exit. cbn [negb x_init x_st x_bad] in *.
  destruct trim; cbn [on x_st x_bad fst snd set_rev o_rev o_bad]; rewrite E, B; reflexivity.
Qed.

(** In diff mode every line that is not touched is in the output as it was, in order and
    with nothing in between. *)
Theorem C68_lines : forall limit usetabs inp in_diff tabs align ls chunks d out bad,
  let lx := snd (tokenized inp in_diff tabs align) in
  split_lines inp ls -> made_from ls chunks d ->
  x_exec limit usetabs true inp lx chunks d false [] = (out, bad, false) ->
  exists e, length ls < e /\ merged ls (touched chunks d) e out.
Proof.
  intros limit usetabs inp in_diff tabs align ls chunks d out bad lx SL MF E. unfold x_exec in E. inversion E as [[E1 E2 E3]]. 
  apply (run_lines limit usetabs inp lx chunks ls d (split_len _ _ SL) (split_nl _ _ SL) (t_in _ _ _ _ _ SL) (t_all _ _ _ _ _ SL) (t_rev _ _ _ _ _ SL) (t_past _ _ _ _ _ SL) MF _ eq_refl E3).
Qed.

Lemma merged_kept : forall ls (T : nat -> Prop) e out, merged ls T e out -> forall n, 1 <= n < e -> ~ T n ->
  exists a l b, nth_error ls (n - 1) = Some l /\ out = a ++ l ++ b /\ merged ls T n a.
Proof.
  induction 1 as [|n out l M IH E|n m out text M IH L B]; intros k K NT; [lia| |].
  - destruct (Nat.eq_dec k n) as [->|D].
    + exists out, l, []. rewrite app_nil_r. auto.
    + destruct (IH k) as (a & x & b & X1 & X2 & X3); [lia|exact NT|]. exists a, x, (b ++ l). subst out. rewrite !app_assoc in *. auto.
  - destruct (le_lt_dec n k) as [D|D]; [exfalso; apply NT, B; lia|].
    destruct (IH k) as (a & x & b & X1 & X2 & X3); [lia|exact NT|]. exists a, x, (b ++ text). subst out. rewrite !app_assoc in *. auto.
Qed.
(** In particular each of them is somewhere in the output, after the lines before it. *)
Theorem C68_kept : forall limit usetabs inp in_diff tabs align ls chunks d out bad,
  let lx := snd (tokenized inp in_diff tabs align) in
  split_lines inp ls -> made_from ls chunks d ->
  x_exec limit usetabs true inp lx chunks d false [] = (out, bad, false) ->
  forall n l, nth_error ls n = Some l -> ~ touched chunks d (S n) ->
  exists a b, out = a ++ l ++ b /\ merged ls (touched chunks d) (S n) a.
Proof.
  intros limit usetabs inp in_diff tabs align ls chunks d out bad lx SL MF E n l N NT.
  destruct (C68_lines _ _ _ _ _ _ _ _ _ _ _ SL MF E) as (e & E1 & M).
  assert (n < length ls) by (apply nth_error_Some; congruence).
  destruct (merged_kept _ _ _ _ M (S n)) as (a & x & b & X1 & X2 & X3); [lia|exact NT|]. replace (S n - 1) with n in X1 by lia. rewrite N in X1. inversion X1; subst. eauto.
Qed.

(** If no token is in the diff, the source comes out as it went in. *)
Theorem C68_identity : forall limit usetabs inp in_diff tabs align ls chunks d,
  let lx := snd (tokenized inp in_diff tabs align) in
  split_lines inp ls -> made_from ls chunks d ->
  (forall g t, In g (groups d) -> In t (toks g) -> k_diff (snd t) = false) ->
  exists bad, x_exec limit usetabs true inp lx chunks d false [] = (inp, bad, false).
Proof.
  intros limit usetabs inp in_diff tabs align ls chunks d lx SL MF NF.
  destruct (run_identity limit usetabs inp lx chunks ls d (split_len _ _ SL) (split_nl _ _ SL) (t_in _ _ _ _ _ SL) (t_all _ _ _ _ _ SL) (t_rev _ _ _ _ _ SL) (t_past _ _ _ _ _ SL) MF NF _ eq_refl) as [B O].
  unfold x_exec. eexists. rewrite B, O, (split_concat _ _ SL). reflexivity.
Qed.

(** No assertion fails if in every group either no comment outside of the diff comes before a
    token of the diff, or the tokens of the diff are all in one chunk. *)
Theorem C68_defined : forall limit usetabs inp in_diff tabs align ls chunks d out bad,
  let lx := snd (tokenized inp in_diff tabs align) in
  split_lines inp ls -> made_from ls chunks d ->
  (forall g, In g (groups d) -> plain g \/ single chunks g) -> distinct d ->
  x_exec limit usetabs true inp lx chunks d false [] = (out, false, bad) -> bad = false.
Proof.
  intros limit usetabs inp in_diff tabs align ls chunks d out bad lx SL MF PS ID E. unfold x_exec in E. inversion E as [[E1 E2 E3]]. rewrite E2.
  apply (run_safe limit usetabs inp lx chunks ls d) with (xs := diff_exit limit usetabs true inp lx chunks (x_exec1 limit usetabs true inp lx chunks d (x_init []))); auto.
  - intros b e H1 H2. destruct (t_in inp in_diff tabs align ls SL b e H1 H2) as (o & n & Q & _). unfold lx. rewrite Q. discriminate.
  - intros b H. destruct (le_lt_dec b (length ls)) as [D|D].
    + destruct (t_all inp in_diff tabs align ls SL b) as (o & n & Q & _); [lia|]. unfold lx. rewrite Q. discriminate.
    + unfold lx. rewrite (t_past inp in_diff tabs align ls SL b D). discriminate.
Qed.

(** ** Cases *)
Definition lit (i n : nat) (f : bool) (s : string) : ddoc := DLiteral (Some (DTok i n f (s2b s))) (s2b s).
Definition com (i n : nat) (f : bool) (s : bytes) : ddoc := DVerbatim (DTok i n f s).
Definition run68 (inp : bytes) (chunks : list DiffModel.chunk) (d : ddoc) : bytes * bool * bool :=
  x_exec 80 false true inp (snd (tokenized inp (fun _ => false) false (fun _ => None))) chunks d false [].

(** Checking that a document is made from a source. *)
Definition inb (chunks : list DiffModel.chunk) (l : nat) : bool :=
  existsb (fun c => (DiffModel.du_beg c <=? N.of_nat l)%N && (N.of_nat l <=? DiffModel.du_end c)%N) chunks.
Fixpoint ordb (l : list (bool * dtok)) : bool := match l with [] => true | x :: r => forallb (fun y => after x <=? lno y) r && ordb r end.
Definition madeb (n : nat) (chunks : list DiffModel.chunk) (d : ddoc) : bool :=
  forallb (fun g => forallb (fun t => (1 <=? lno t) && (lno t <=? n) && Bool.eqb (k_diff (snd t)) (inb chunks (lno t))) (toks g) && ordb (toks g)) (groups d) &&
  forallb (fun n => 1 <=? n) (limits d).
Lemma inb_iff : forall chunks l, inb chunks l = true <-> in_chunk chunks l.
Proof.
  intros chunks l. unfold inb, in_chunk. rewrite existsb_exists. split; intros (c & H1 & H2); exists c; split; auto.
  - apply andb_true_iff in H2. destruct H2 as [A B]. apply N.leb_le in A, B. lia.
  - apply andb_true_iff. rewrite !N.leb_le. lia.
Qed.
Lemma ordb_ok : forall l, ordb l = true -> ForallOrdPairs (fun x y => after x <= lno y) l.
Proof.
  induction l as [|x l IH]; intros H; [constructor|]. cbn [ordb] in H. apply andb_true_iff in H. destruct H as [A B]. constructor; [|auto].
  rewrite Forall_forall. intros y Hy. rewrite forallb_forall in A. apply Nat.leb_le, A, Hy.
Qed.
Lemma madeb_ok : forall ls chunks d, madeb (length ls) chunks d = true -> made_from ls chunks d.
Proof.
  intros ls chunks d H. unfold madeb in H. apply andb_true_iff in H. destruct H as [H L]. rewrite forallb_forall in H.
  assert (G : forall g, In g (groups d) -> (forall t, In t (toks g) -> 1 <= lno t <= length ls /\ (k_diff (snd t) = true <-> in_chunk chunks (lno t))) /\ ordb (toks g) = true).
  { intros g Hg. specialize (H g Hg). apply andb_true_iff in H. destruct H as [H O]. split; [|exact O]. intros t Ht. rewrite forallb_forall in H. specialize (H t Ht).
    apply andb_true_iff in H. destruct H as [H E]. apply andb_true_iff in H. destruct H as [A B]. apply Nat.leb_le in A, B. apply Bool.eqb_prop in E. rewrite E, inb_iff. split; [lia|reflexivity]. }
  constructor.
  - intros g t Hg Ht. apply (G g Hg), Ht.
  - intros g t Hg Ht. apply (G g Hg), Ht.
  - intros g Hg. apply ordb_ok, (G g Hg).
  - rewrite Forall_forall. intros n Hn. rewrite forallb_forall in L. apply Nat.leb_le, L, Hn.
Qed.
Ltac lines := repeat first [apply sl_last; vm_compute; intuition discriminate | apply sl_more; [vm_compute; intuition discriminate|]].

(** Five lines of which the second is in the diff: that one is formatted. *)
Definition in68 : bytes := s2b "int  x;" ++ NL :: (s2b "int  y;" ++ NL :: (s2b "int   z;" ++ NL :: ([] ++ NL :: (s2b "int   w;" ++ NL :: [])))).
Definition ls68 : list bytes := [s2b "int  x;" ++ [NL]; s2b "int  y;" ++ [NL]; s2b "int   z;" ++ [NL]; [] ++ [NL]; s2b "int   w;" ++ [NL]; []].
Definition decl (i n : nat) (f : bool) (v : string) : ddoc := DGroup (DConcat [lit i n f "int"; DLine; lit (S i) n f v]).
Definition ex68 (f : bool) : ddoc :=
  DConcat [decl 0 1 false "x;"; DHardline; decl 2 2 f "y;"; DHardline; com 8 3 false (s2b "/**/" ++ [NL]); decl 4 3 false "z;"; DHardline; DHardline; decl 6 5 false "w;"; DHardline].
Example C68_ex_split : split_lines in68 ls68.
Proof. unfold in68, ls68. lines. Qed.
Example C68_ex_lines : made_from ls68 [DiffModel.Chunk 2 2] (ex68 true) /\
  run68 in68 [DiffModel.Chunk 2 2] (ex68 true) = (concat [s2b "int  x;" ++ [NL]; s2b "int y;" ++ [NL]; s2b "int   z;" ++ [NL; NL]; s2b "int   w;" ++ [NL]], false, false).
Proof. split; [apply madeb_ok|]; vm_compute; reflexivity. Qed.
Example C68_ex_kept : ~ touched [DiffModel.Chunk 2 2] (ex68 true) 3.
Proof.
  assert (Q : forall l, touched [DiffModel.Chunk 2 2] (ex68 true) l -> l = 2); [|intros T; apply Q in T; discriminate].
  intros l T. induction T as [l C|g f a b l Hg Hf D Ha Hb R|v l l' V T IH R1 R2].
  - destruct C as (c & [<-|[]] & B). cbn in B. lia.
  - cbn in Hg. destruct Hg as [<-|[<-|[<-|[<-|[]]]]]; cbn in Hf, Ha, Hb; destruct Hf as [<-|[<-|[]]]; try discriminate; destruct Ha as [<-|[<-|[]]]; destruct Hb as [<-|[<-|[]]]; cbn in R; lia.
  - subst l'. cbn in V. repeat destruct V as [V|V]; inversion V; subst. cbn in R1. lia.
Qed.
Example C68_ex_identity : made_from ls68 [] (ex68 false) /\ (forall g t, In g (groups (ex68 false)) -> In t (toks g) -> k_diff (snd t) = false) /\ run68 in68 [] (ex68 false) = (in68, false, false).
Proof.
  split; [apply madeb_ok; vm_compute; reflexivity|]. split; [|vm_compute; reflexivity].
  intros g t Hg Ht. cbn in Hg. destruct Hg as [<-|[<-|[<-|[<-|[]]]]]; cbn in Ht; destruct Ht as [<-|[<-|[]]]; reflexivity.
Qed.
(** A comment outside of the diff before a statement in it: both hypotheses hold. *)
Definition inc68 : bytes := s2b "/* a */" ++ NL :: (s2b "x  =  1;" ++ NL :: []).
Definition exc68 : ddoc := DConcat [DGroup (DConcat [com 0 1 false (s2b "/* a */" ++ [NL]); lit 1 2 true "x"; DLine; lit 2 2 true "="; DLine; lit 3 2 true "1;"]); DHardline].
Example C68_ex_defined : made_from [s2b "/* a */" ++ [NL]; s2b "x  =  1;" ++ [NL]; []] [DiffModel.Chunk 2 2] exc68 /\
  (forall g, In g (groups exc68) -> single [DiffModel.Chunk 2 2] g) /\ distinct exc68 /\
  run68 inc68 [DiffModel.Chunk 2 2] exc68 = (concat [s2b "/* a */" ++ [NL]; s2b "x = 1;" ++ [NL]], false, false).
Proof.
  split; [apply madeb_ok; vm_compute; reflexivity|]. split; [|split; [|vm_compute; reflexivity]].
  - intros g [<-|[]] t u c Ht Hu D1 D2 [<-|[]] B. cbn in Hu. destruct Hu as [<-|[<-|[<-|[<-|[]]]]]; cbn; lia.
  - intros v w [V|[V|[V|[V|[]]]]] [W|[W|[W|[W|[]]]]] E; inversion V; inversion W; subst; reflexivity.
Qed.

(** A comment that starts in the diff and ends after it: its last line is not there twice. *)
Definition inl68 : bytes := s2b "/* a" ++ NL :: (s2b " b */" ++ NL :: (s2b "x  ;" ++ NL :: (s2b "y  ;" ++ NL :: []))).
Definition exl68 : ddoc := DConcat [DGroup (DConcat [com 0 1 true (s2b "/* a" ++ NL :: s2b " b */" ++ [NL]); lit 1 3 false "x"; lit 2 3 false ";"]); DHardline; DGroup (DConcat [lit 3 4 false "y"; lit 4 4 false ";"]); DHardline].
Example C68_ex_across : made_from [s2b "/* a" ++ [NL]; s2b " b */" ++ [NL]; s2b "x  ;" ++ [NL]; s2b "y  ;" ++ [NL]; []] [DiffModel.Chunk 1 1] exl68 /\
  run68 inl68 [DiffModel.Chunk 1 1] exl68 = (inl68, false, false).
Proof. split; [apply madeb_ok|]; vm_compute; reflexivity. Qed.

(** ** What is false *)
Definition in_twice : bytes := s2b "a = 1; b = 2 +" ++ NL :: (s2b "    3;" ++ NL :: []).
Definition ex_twice : ddoc :=
  DConcat [DGroup (DConcat [lit 0 1 false "a"; DLine; lit 1 1 false "="; DLine; lit 2 1 false "1;"]); DHardline;
    DGroup (DConcat [lit 3 1 false "b"; DLine; lit 4 1 false "="; DLine; lit 5 1 false "2"; DLine; lit 6 1 false "+"; DLine; lit 7 2 true "3;"]); DHardline].
(** A statement that shares its line with the next one is lost if only the next one has a
    token in the diff: the lines up to the one on which the next statement starts are copied,
    without that line, and the statement itself is not formatted.  Of "a = 1; b = 2 +" and
    "3;" with the second line in the diff remains "b = 2 + 3;". *)
Theorem C68_shared_refuted : exists inp ls chunks d out,
  split_lines inp ls /\ made_from ls chunks d /\ run68 inp chunks d = (out, false, false) /\
  In "a"%char inp /\ (exists g t, In g (groups d) /\ In t (toks g) /\ k_str (snd t) = s2b "a" /\ k_diff (snd t) = false) /\ ~ In "a"%char out.
Proof.
  exists in_twice, [s2b "a = 1; b = 2 +" ++ [NL]; s2b "    3;" ++ [NL]; []], [DiffModel.Chunk 2 2], ex_twice, (s2b "b = 2 + 3;" ++ [NL]).
  split; [unfold in_twice; lines|]. split; [apply madeb_ok; vm_compute; reflexivity|]. split; [vm_compute; reflexivity|]. split; [left; reflexivity|]. split; [|vm_compute; intuition discriminate].
  eexists _, (false, DTok 0 1 false (s2b "a")). split; [left; reflexivity|]. split; [left; reflexivity|]. split; reflexivity.
Qed.
Definition in_suffix : bytes := s2b "x = a + /* c */" ++ NL :: (s2b "  b;" ++ NL :: []).
Definition ex_suffix : ddoc :=
  DConcat [DGroup (DConcat [lit 0 1 false "x"; DLine; lit 1 1 false "="; DLine; lit 2 1 false "a"; DLine; lit 3 1 false "+"; com 4 1 false (s2b " /* c */"); DLine; lit 5 2 true "b;"]); DHardline].
(** A comment outside of the diff at the end of a line, in a statement that continues on a
    line in the diff, takes its line with it: doc_diff_group_enter copies the lines before the
    line after the comment, which is taken to be the line of the comment itself as the
    comment has no new line, and mutes everything up to and including the comment. *)
Theorem C68_suffix_refuted : exists inp ls chunks d out,
  split_lines inp ls /\ made_from ls chunks d /\ (forall g, In g (groups d) -> single chunks g) /\ run68 inp chunks d = (out, false, false) /\
  In "x"%char inp /\ ~ In "x"%char out.
Proof.
  exists in_suffix, [s2b "x = a + /* c */" ++ [NL]; s2b "  b;" ++ [NL]; []], [DiffModel.Chunk 2 2], ex_suffix, (s2b " b;" ++ [NL]).
  split; [unfold in_suffix; lines|]. split; [apply madeb_ok; vm_compute; reflexivity|]. split; [|split; [vm_compute; reflexivity|split; [left; reflexivity|vm_compute; intuition discriminate]]].
  intros g [<-|[]] t u c Ht Hu D1 D2 [<-|[]] B. cbn in Hu. destruct Hu as [<-|[<-|[<-|[<-|[<-|[<-|[]]]]]]]; cbn; lia.
Qed.
Definition in_nested : bytes := s2b "/* a */" ++ NL :: (s2b "/* b */" ++ NL :: ([] ++ NL :: (s2b "x;" ++ NL :: []))).
Definition ex_nested : ddoc :=
  DConcat [DGroup (DConcat [com 0 1 false (s2b "/* a */" ++ [NL]); com 1 2 true (s2b "/* b */" ++ [NL; NL]); lit 2 4 true "x;"]); DHardline].
(** Without the hypothesis of C68_defined assertions do fail: in a group with tokens in two
    chunks doc_diff_leave enters the group again and takes a comment in front of the first
    chunk for one to wait for, although it has been printed; the output ends there, with the
    statement missing, and doc_diff_exit then leaves with the comment still pending
    (doc.c:1655). *)
Theorem C68_nested_refuted : exists inp ls chunks d out,
  split_lines inp ls /\ made_from ls chunks d /\ distinct d /\ run68 inp chunks d = (out, false, true) /\ In "x"%char inp /\ ~ In "x"%char out.
Proof.
  exists in_nested, [s2b "/* a */" ++ [NL]; s2b "/* b */" ++ [NL]; [] ++ [NL]; s2b "x;" ++ [NL]; []], [DiffModel.Chunk 2 2; DiffModel.Chunk 4 4], ex_nested, (s2b "/* a */" ++ NL :: (s2b "/* b */" ++ [NL; NL])).
  split; [unfold in_nested; lines|]. split; [apply madeb_ok; vm_compute; reflexivity|]. split; [|split; [vm_compute; reflexivity|split; [vm_compute; intuition|vm_compute; intuition discriminate]]].
  intros v w [V|[V|[V|[]]]] [W|[W|[W|[]]]] E; inversion V; inversion W; subst; try reflexivity; discriminate E.
Qed.

Print Assumptions C68_off.
Print Assumptions C68_lines.
Print Assumptions C68_kept.
Print Assumptions C68_identity.
Print Assumptions C68_defined.
Print Assumptions C68_shared_refuted.
Print Assumptions C68_suffix_refuted.
Print Assumptions C68_nested_refuted.
