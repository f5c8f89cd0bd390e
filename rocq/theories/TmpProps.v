(** Showing the difference with diff(1): C73. *)
From Verif Require Import Base FileModel TmpModel TmpProofs.

(** ** Specification *)
(** The number a string of digits denotes. *)
Fixpoint number (acc : nat) (s : bytes) : option nat :=
  match s with
  | [] => Some acc
  | c :: r => if isdigit c then number (10 * acc + (nat_of_ascii c - 48)) r else None
  end.
(** The descriptor a name below /dev/fd stands for. *)
Definition fd_of_path (p : bytes) : option nat :=
  if starts_with (s2b "/dev/fd/") p then match skipn 8 p with [] => None | s => number 0 s end else None.
(** What a process with these descriptors finds when opening [p]: the content of the file,
    and the offset from which it reads it where opening /dev/fd/n duplicates n. *)
Definition finds (o : os) (tab : list entry) (p : bytes) : option (bytes * nat) :=
  match fd_of_path p with
  | None => None
  | Some fd =>
    match find (fun e => e_fd e =? fd) tab with
    | None => None
    | Some e => let x := o_descs o (e_desc e) in Some (i_data (f_nodes (o_fs o) (o_node x)), o_off x)
    end
  end.
(** The names in the file system are those of [f0]. *)
Definition same_names (f0 f : fs) : Prop := forall p, f_names f p = f_names f0 p.

(** ** Names of descriptors *)
Lemma digit_char : forall d, d < 10 -> isdigit (ascii_of_nat (48 + d)) = true /\ nat_of_ascii (ascii_of_nat (48 + d)) = 48 + d.
Proof. intros d H. do 10 (destruct d as [|d]; [split; reflexivity|]). lia. Qed.
Lemma number_dec : forall fuel n acc, n < fuel -> number 0 (dec_fuel fuel n acc) = number n acc.
Proof.
  induction fuel as [|fuel IH]; intros n acc H; [lia|]. cbn [dec_fuel]. assert (M := Nat.mod_upper_bound n 10 ltac:(lia)). assert (D := Nat.div_mod n 10 ltac:(lia)). destruct (digit_char (n mod 10) M) as [D1 D2].
  assert (S : forall a, number a (ascii_of_nat (48 + n mod 10) :: acc) = number (10 * a + n mod 10) acc) by (intros a; cbn [number]; rewrite D1, D2; f_equal; lia).
  destruct (Nat.eqb_spec (n / 10) 0) as [E|E].
  - rewrite S. f_equal. lia.
  - rewrite IH by (assert (n / 10 < n) by (apply Nat.div_lt; lia); lia). rewrite S. f_equal. lia.
Qed.
Lemma dec_not_nil : forall fuel n acc, acc <> [] -> dec_fuel fuel n acc <> [].
Proof. induction fuel as [|fuel IH]; intros n acc H; cbn [dec_fuel]; [exact H|]. destruct (n / 10 =? 0); [discriminate|]. apply IH. discriminate. Qed.
Lemma fd_of_dev : forall n, fd_of_path (dev n) = Some n.
Proof.
  intros n. unfold fd_of_path, dev. assert (E : skipn 8 (s2b "/dev/fd/" ++ dec n) = dec n) by reflexivity. rewrite E. assert (SW : starts_with (s2b "/dev/fd/") (s2b "/dev/fd/" ++ dec n) = true) by reflexivity. rewrite SW.
  assert (Q := number_dec (S n) n [] ltac:(lia)). change (dec_fuel (S n) n []) with (dec n) in Q. destruct (dec n) as [|a r] eqn:D; [|exact Q].
  exfalso. unfold dec in D. cbn [dec_fuel] in D. destruct (n / 10 =? 0); [discriminate|]. eapply dec_not_nil; [|exact D]. discriminate.
Qed.
Lemma finds_entry : forall o t p s n, at_entry o t p s (Some n) -> finds o t p = Some (s, n).
Proof. intros o t p s n (fd & e & -> & G & _ & D & O). unfold finds. rewrite fd_of_dev. unfold tab_get in G. rewrite G. cbn [e_desc]. rewrite D, O. reflexivity. Qed.
Lemma finds_data : forall o t p s, at_entry o t p s None -> option_map fst (finds o t p) = Some s.
Proof. intros o t p s (fd & e & -> & G & _ & D & O). unfold finds. rewrite fd_of_dev. unfold tab_get in G. rewrite G. cbn. rewrite D. reflexivity. Qed.
Lemma at_entry_filter : forall o t p s off, at_entry o t p s off -> at_entry o (filter (fun e => negb (e_cloexec e)) t) p s off.
Proof. intros o t p s off (fd & e & -> & G & X & D & O). exists fd, e. split; [reflexivity|]. split; [apply tab_get_exec; assumption|auto]. Qed.

(** ** C73 *)
(** It returns 0 if and only if formatting changed nothing, whatever fails on the way. *)
Theorem C73_status : forall c o0 s r, NoDup (map e_fd (o_tab o0)) -> treach c (tinit o0) s -> t_pc s = TRet r -> (r = false <-> cl_src c = cl_dst c).
Proof. intros c o0 s r N H E. destruct (tinv_reach c o0 s N H) as (own & _ & _ & _ & C & _). rewrite E in C. apply C. Qed.
(** At every point at most two descriptors are open besides those at the start, whatever
    fails; on return there is none.  None is closed that is not open. *)
Theorem C73_descriptors : forall c o0 s, NoDup (map e_fd (o_tab o0)) -> treach c (tinit o0) s ->
  t_pc s <> TBad /\ (exists own, length own <= 2 /\ o_tab (t_os s) = own ++ o_tab o0) /\ (forall r, t_pc s = TRet r -> o_tab (t_os s) = o_tab o0).
Proof.
  intros c o0 s N H. destruct (tinv_reach c o0 s N H) as (own & K & _ & _ & C & _). split; [intros E; rewrite E in C; exact C|]. split.
  - exists (map ent own). split; [|apply (tk_tab _ _ _ K)]. rewrite map_length.
    assert (B : forall w l o, base c w o l own -> length own <= 1) by (intros [|] l o; cbn [base]; [intros (-> & _); cbn; lia|intros (x & -> & _); cbn; lia]).
    assert (B2 : forall w l o own', base c w o l own' -> length own' <= 1) by (intros [|] l o own'; cbn [base]; [intros (-> & _); cbn; lia|intros (x & -> & _); cbn; lia]).
    assert (Q : forall w o l ch fd d off, cur c w o l ch own fd d off -> length own <= 2) by (intros w o l ch fd d off (_ & _ & x & own' & -> & _ & X & _); apply B2 in X; cbn; lia).
    assert (M : forall a b, map w_fd own = opt_fd a ++ opt_fd b -> length own <= 2) by (intros a b X; rewrite <- (map_length w_fd), X, app_length; destruct a, b; cbn; lia).
    destruct (t_pc s) as [|w|w|w old|w old [[fd tmp]|]|w fd tmp|w fd rest|w fd|w fd|fd| | | | |r|] eqn:Pc; cbn [ctl] in C.
    all: try (destruct C as (_ & C); apply B in C; lia). all: try (destruct C as (_ & _ & C); apply B in C; lia). all: try (apply Q in C; exact C).
    + destruct C as (pre & _ & C). apply Q in C. exact C.
    + destruct C as (_ & _ & x & own' & -> & _ & _ & C). cbn. lia.
    + destruct C as (_ & _ & xd & xs & -> & _). cbn. lia.
    + destruct C as (_ & C). eapply M. exact C.
    + destruct C as (_ & C). eapply M. exact C.
    + destruct C as (_ & C). eapply (M _ None). rewrite app_nil_r. exact C.
    + destruct C as (-> & _). cbn. lia.
    + contradiction.
  - intros r E. rewrite E in C. destruct C as (-> & _). rewrite (tk_tab _ _ _ K). reflexivity.
Qed.
(** Every file there was at the start stays as it was.  A name is added only between mkstemp and
    unlink, one at a time, or if unlink failed; it is /tmp/libks. and eight more bytes. *)
Theorem C73_files : forall c o0 s, NoDup (map e_fd (o_tab o0)) -> treach c (tinit o0) s ->
  (forall i, i < f_next (o_fs o0) -> f_nodes (o_fs (t_os s)) i = f_nodes (o_fs o0) i) /\
  (forall p, f_names (o_fs (t_os s)) p <> f_names (o_fs o0) p ->
     f_names (o_fs o0) p = None /\ (exists sfx, length sfx = 8 /\ ~ In "/"%char sfx /\ p = s2b "/tmp/libks." ++ sfx) /\
     (In p (t_kept s) \/ (exists w old fd, t_pc s = TRestore w old (Some (fd, p))) \/ (exists w fd, t_pc s = TUnlink w fd p))) /\
  (forall r, t_pc s = TRet r -> t_kept s = [] -> same_names (o_fs o0) (o_fs (t_os s))).
Proof.
  intros c o0 s N H. destruct (tinv_reach c o0 s N H) as (own & _ & F & _ & _ & _). split; [apply (fk_old _ _ _ F)|]. split.
  - intros p Np. destruct (in_dec (list_eq_dec ascii_dec) p (live (t_pc s) ++ t_kept s)) as [X|X]; [|exfalso; apply Np; apply (fk_same _ _ _ F); exact X]. destruct (fk_new _ _ _ F p X) as [A B]. split; [exact A|]. split; [exact B|].
    rewrite in_app_iff in X. destruct X as [X|X]; [|auto]. right. destruct (t_pc s) as [|w|w|w old|w old [[fd tmp]|]|w fd tmp|w fd rest|w fd|w fd|fd| | | | |r|]; cbn in X; try contradiction; destruct X as [<-|[]]; [left|right]; eauto.
  - intros r E Z p. apply (fk_same _ _ _ F). rewrite E, Z. intros [].
Qed.
(** The umask is what it was, except around mkstemp. *)
Theorem C73_umask : forall c o0 s, NoDup (map e_fd (o_tab o0)) -> treach c (tinit o0) s ->
  o_umask (t_os s) = o_umask o0 \/ (exists w old, t_pc s = TMkstemp w old) \/ (exists w old r, t_pc s = TRestore w old r).
Proof. intros c o0 s N H. destruct (tinv_reach c o0 s N H) as (own & _ & _ & U & _ & _). destruct (t_pc s); cbn in U; eauto. right. right. eauto. Qed.
(** When diff is run, formatting changed something, and its last two arguments lead to what was
    read and to what formatting made of it, from the first byte on; the labels are the path
    with and without .orig. *)
Theorem C73_diff : forall c o0 s s' tab tab' f args, NoDup (map e_fd (o_tab o0)) -> treach c (tinit o0) s -> tstep c s s' ->
  t_child s = CForked tab -> t_child s' = CDiff tab' f args ->
  cl_src c <> cl_dst c /\ f = s2b "/usr/bin/diff" /\
  exists sp dp, args = [s2b "/usr/bin/diff"; s2b "-u"; s2b "-L"; cl_path c ++ s2b ".orig"; s2b "-L"; cl_path c; sp; dp] /\
    finds (t_os s') tab' sp = Some (cl_src c, 0) /\ finds (t_os s') tab' dp = Some (cl_dst c, 0).
Proof.
  intros c o0 s s' tab tab' f args N H St E E'. destruct (tinv_reach c o0 s N H) as (own & _ & _ & _ & C & Ch). rewrite E in *. cbn [child_ok] in Ch. destruct Ch as (A & B1 & B2).
  assert (X : s' = with_child (CDiff (filter (fun e => negb (e_cloexec e)) tab) diff_file (diff_args c (t_loc s))) s).
  { destruct St; unfold closes_opt, closes, returned, goto, with_os, with_child, warns, keeps in *; cbn [t_child] in E'; try congruence.
    - destruct w; cbn [t_child] in E'; congruence.
    - destruct (tab_close _ _); cbn [t_child] in E'; congruence.
    - destruct (l_srcfd _); [destruct (tab_close _ _)|]; cbn [t_child] in E'; congruence.
    - destruct (l_dstfd _); [destruct (tab_close _ _)|]; cbn [t_child] in E'; congruence. }
  subst s'. cbn [with_child t_child] in E'. injection E' as <- <- <-. split; [exact A|]. split; [reflexivity|]. exists (l_srcpath (t_loc s)), (l_dstpath (t_loc s)). split; [reflexivity|]. cbn [with_child t_os]. split; apply finds_entry; apply at_entry_filter; assumption.
Qed.
(** While it runs the two files do not change, even if waitpid fails and knfmt returns. *)
Theorem C73_stable : forall c o0 s tab f args, NoDup (map e_fd (o_tab o0)) -> treach c (tinit o0) s -> t_child s = CDiff tab f args ->
  exists pre sp dp, args = pre ++ [sp; dp] /\ option_map fst (finds (t_os s) tab sp) = Some (cl_src c) /\ option_map fst (finds (t_os s) tab dp) = Some (cl_dst c).
Proof.
  intros c o0 s tab f args N H E. destruct (tinv_reach c o0 s N H) as (own & _ & _ & _ & _ & Ch). rewrite E in Ch. cbn [child_ok] in Ch. destruct Ch as (_ & _ & sp & dp & -> & D1 & D2).
  exists [s2b "/usr/bin/diff"; s2b "-u"; s2b "-L"; cl_path c ++ s2b ".orig"; s2b "-L"; cl_path c], sp, dp. split; [reflexivity|]. split; apply finds_data; assumption.
Qed.

(** Once both temporary files have been made, something is shown: a process for diff(1) has been
    forked or a warning was printed. *)
Definition shown (s : tstate) : Prop := t_child s <> CNone \/ t_warn s <> [].
Definition shown_at (s : tstate) : Prop :=
  match t_pc s with
  | TFork | TBad => True
  | TWait | TOut1 | TOut2 | TRet true => l_dstfd (t_loc s) = None \/ shown s
  | _ => l_dstfd (t_loc s) = None
  end.
Lemma shown_step : forall c s s', shown_at s -> tstep c s s' -> shown_at s'.
Proof.
  intros c s s' I St. unfold shown_at, shown in *. destruct St as [E| E| w E| w E| w E| w old sfx fd m u g E| w old E| w old r E| w fd tmp E| w fd tmp E| w fd a b e E| w fd rest E| w fd E| w fd e E| w fd E| w fd E| w fd E| fd E| E| E| tab E| tab E| tab f args e off E| tab f args E| E| E| E| E]; try rewrite E in I; cbn [goto with_os with_child warns keeps t_pc t_loc t_child t_warn]; auto.
  - destruct r as [[fd tmp]|]; auto.
  - destruct w; cbn [returned t_pc t_loc l_dstfd]; auto.
  - unfold closes. destruct (tab_close fd _); cbn [goto with_os t_pc t_loc t_child t_warn]; auto.
  - right. right. discriminate.
  - right. left. discriminate.
  - destruct (t_pc s) as [| | | | | | | | | | | | | |[|]|]; auto; right; left; discriminate.
  - destruct (t_pc s) as [| | | | | | | | | | | | | |[|]|]; auto; right; left; discriminate.
  - rewrite E. destruct (t_pc s) as [| | | | | | | | | | | | | |[|]|]; auto; right; left; discriminate.
  - destruct (t_pc s) as [| | | | | | | | | | | | | |[|]|]; auto; right; left; discriminate.
  - right. right. discriminate.
  - unfold closes_opt, closes. destruct (l_srcfd _); [destruct (tab_close _ _)|]; cbn [goto with_os t_pc t_loc t_child t_warn]; auto.
  - unfold closes_opt, closes. destruct (l_dstfd (t_loc s)) eqn:D; [destruct (tab_close _ _)|]; cbn [goto with_os t_pc t_loc t_child t_warn]; auto; rewrite D; exact I.
Qed.
Theorem C73_shown_partial : forall c o0 s fd, treach c (tinit o0) s -> t_pc s = TRet true -> l_dstfd (t_loc s) = Some fd -> t_child s <> CNone \/ t_warn s <> [].
Proof.
  intros c o0 s fd H E D. assert (I : shown_at s). { clear E D. induction H as [|s s' H IH St]; [reflexivity|]. eapply shown_step; eassumption. }
  unfold shown_at in I. rewrite E, D in I. destruct I as [I|I]; [discriminate|exact I].
Qed.

(** ** Examples *)
Lemma treach_front : forall c s s1 s2, tstep c s s1 -> treach c s1 s2 -> treach c s s2.
Proof. intros c s s1 s2 H K. induction K as [|s2 s3 K IH St]; [eapply TR_step; [apply TR_refl|exact H]|eapply TR_step; eassumption]. Qed.
Definition ex_call : call := Call (s2b "a.c") (s2b "int  x;") (s2b "int x;").
Definition ex_os : os := Os (Fs (fun _ => None) (fun _ => Inode [] 0 false 0 0) 0) (fun _ => Desc 0 0) 3 [Entry 0 0 false; Entry 1 1 false; Entry 2 2 false; Entry 3 2 true] 63.
Lemma ex_nodup : NoDup (map e_fd (o_tab ex_os)).
Proof. repeat constructor; cbn; intuition discriminate. Qed.
Ltac tside := cbn [t_pc t_os t_loc t_child o_tab o_fs f_names ex_call cl_src cl_dst side_data]; first [reflexivity | discriminate | (vm_compute; first [reflexivity | lia | intuition discriminate])].
Ltac tred := cbn [ex_call cl_src cl_dst side_data cl_path goto with_os with_child warns keeps returned closes_opt t_pc t_os t_loc t_child t_warn t_kept l_srcfd l_dstfd l_srcpath l_dstpath set_umask set_tab set_fs set_desc os_mkstemp os_write ent e_fd e_desc o_fs o_descs o_next o_tab o_umask f_next ex_os].
Tactic Notation "tgo" uconstr(r) := eapply treach_front; [eapply r; tside|tred].
Tactic Notation "tclose" uconstr(r) := tgo r; match goal with |- treach _ (closes ?fd ?k ?s) _ => let q := eval vm_compute in (tab_close fd (o_tab (t_os s))) in match q with Some ?t => change (closes fd k s) with (match Some t with Some t => goto k (with_os (set_tab t (t_os s)) s) | None => goto TBad s end); cbn match; tred end | _ => idtac end.
(** diff(1) is run. *)
Example C73_ex_run : exists s tab f args, treach ex_call (tinit ex_os) s /\ t_child s = CDiff tab f args /\ t_pc s = TRet true /\ t_kept s = [] /\ l_dstfd (t_loc s) = Some 10 /\
  skipn 6 args = [s2b "/dev/fd/4"; s2b "/dev/fd/10"].
Proof.
  eexists. eexists. eexists. eexists. split.
  { unfold tinit.
    tgo K_differs.
    tgo K_name. tgo K_umask. tgo (K_mkstemp _ _ Src 63 (s2b "abcdefgh") 4 384 0 0).
    tgo K_restore. tgo K_unlink. tgo (K_write _ _ Src 4 (s2b "int ") (s2b " x;")). tgo (K_write _ _ Src 4 (s2b " x;") []). tgo K_write_end. tgo K_seek. tgo K_path.
    tgo K_name. tgo K_umask. tgo (K_mkstemp _ _ Dst 63 (s2b "abcdefgi") 10 384 0 0).
    tgo K_restore. tgo K_unlink. tgo (K_write _ _ Dst 10 (s2b "int x;") []). tgo K_write_end. tgo K_seek. tgo K_path.
    tgo K_fork. tgo K_wait_fail. tgo K_exec. tclose K_out1. tclose K_out2. apply TR_refl. }
  split; [reflexivity|]. split; [reflexivity|]. split; [reflexivity|]. split; reflexivity.
Qed.
(** If a temporary file cannot be made, the exit status tells that formatting would change the
    file, but nothing is shown: neither diff nor a warning.  filediff (knfmt.c:260-267) does not
    warn where KS_tmpfd returned -1, and neither does KS_tmpfd. *)
Theorem C73_silent_refuted : exists c o0 s, NoDup (map e_fd (o_tab o0)) /\ treach c (tinit o0) s /\ t_pc s = TRet true /\ t_child s = CNone /\ t_warn s = [].
Proof.
  exists ex_call, ex_os. eexists. split; [apply ex_nodup|]. split.
  { unfold tinit. tgo K_differs. tgo K_name. tgo K_umask. tgo K_mkstemp_fail. tgo K_restore. tclose K_out1. tclose K_out2. apply TR_refl. }
  auto.
Qed.
(** Nothing to show. *)
Example C73_ex_same : exists s, treach (Call (s2b "a.c") (s2b "x") (s2b "x")) (tinit ex_os) s /\ t_pc s = TRet false.
Proof. eexists. split; [unfold tinit; tgo K_same; apply TR_refl|reflexivity]. Qed.
(** A temporary file that cannot be removed. *)
Example C73_ex_kept : exists s, treach ex_call (tinit ex_os) s /\ t_pc s = TRet true /\ t_kept s = [s2b "/tmp/libks.abcdefgh"] /\ f_names (o_fs (t_os s)) (s2b "/tmp/libks.abcdefgh") <> None.
Proof.
  eexists. split.
  { unfold tinit. tgo K_differs. tgo K_name. tgo K_umask. tgo (K_mkstemp _ _ Src 63 (s2b "abcdefgh") 4 384 0 0).
    tgo K_restore. tgo K_unlink_fail. tclose K_err. tclose K_out1. tclose K_out2. apply TR_refl. }
  split; [reflexivity|]. split; [reflexivity|]. vm_compute. discriminate.
Qed.

Print Assumptions C73_status.
Print Assumptions C73_descriptors.
Print Assumptions C73_files.
Print Assumptions C73_umask.
Print Assumptions C73_diff.
Print Assumptions C73_stable.
Print Assumptions C73_shown_partial.
Print Assumptions C73_silent_refuted.
