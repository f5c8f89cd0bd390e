(** C69: looking for a file in the directories above the current one. *)
From Verif Require Import Base SearchModel.

(** ** What the result should be, in terms of directories only

    [above k n d e]: the kernel leads from the current directory to [d] in [n] steps upwards,
    each time to a directory other than the one before, none on the way having the file; the
    identity of [d] was [e]. *)
Inductive above (k : kernel) : nat -> nat -> ident -> Prop :=
| above_here : forall d e, k_cwd k = Some d -> k_stat k 0 d = Some e -> above k 0 d e
| above_up : forall n d e d' e', above k n d e -> k_file k n d = false -> k_up k n d = Some d' -> k_stat k (S n) d' = Some e' -> e' <> e -> above k (S n) d' e'.

(** Why a search ends without a result. *)
Inductive hopeless (k : kernel) : Prop :=
| no_cwd : k_cwd k = None -> hopeless k
| no_stat : forall d, k_cwd k = Some d -> k_stat k 0 d = None -> hopeless k
| no_parent : forall n d e, above k n d e -> k_file k n d = false -> k_up k n d = None -> hopeless k
| no_ident : forall n d e d', above k n d e -> k_file k n d = false -> k_up k n d = Some d' -> k_stat k (S n) d' = None -> hopeless k
| is_root : forall n d e d', above k n d e -> k_file k n d = false -> k_up k n d = Some d' -> k_stat k (S n) d' = Some e -> hopeless k.

(** Descriptors: every number handed out so far is below the next one. *)
Definition fresh (f : fds) : Prop := forall p, In p (d_open f) -> fst p < d_next f.

(** What a call does: of the descriptors nothing is left but those open before and, if one is
    returned, the one of the file found; no other is closed. *)
Definition meets (k : kernel) (want : bool) (f : fds) (o : outcome) : Prop :=
  match o with
  | Ret (Some fd) l f' => exists n d e, above k n d e /\ k_file k n d = true /\ l = (if want then Some n else None) /\
      d_open f' = (fd, OFile d) :: d_open f /\ ~ In fd (map fst (d_open f)) /\ fresh f'
  | Ret None l f' => hopeless k /\ l = None /\ d_open f' = d_open f /\ fresh f'
  | _ => False
  end.

(** ** Proof *)
Lemma ident_eqb_spec : forall a b, reflect (a = b) (ident_eqb a b).
Proof.
  intros [a a'] [b b']. unfold ident_eqb. cbn [fst snd]. destruct (N.eqb_spec a b) as [->|D]; [destruct (N.eqb_spec a' b') as [->|D]|]; cbn [andb]; constructor; congruence.
Qed.
Lemma filter_old : forall (l : list (nat * object)) n, (forall p, In p l -> fst p < n) -> filter (fun p => negb (fst p =? n)) l = l.
Proof.
  induction l as [|p l IH]; intros n H; [reflexivity|]. cbn [filter]. specialize (H p (or_introl eq_refl)) as H1. destruct (Nat.eqb_spec (fst p) n) as [E|_]; [lia|]. cbn [negb]. rewrite IH; [reflexivity|]. intros q Q. apply H. right. exact Q.
Qed.
Section Loop.
Variable k : kernel.
Variable want : bool.
(** [dirfd] is the latest descriptor but those in [os]. *)
Lemma loop_ok : forall fuel n id dirfd d f nx os, above k n d id -> d_open f = os -> fresh f -> dirfd = d_next f -> nx = S dirfd ->
  forall o, search_loop k want fuel n id dirfd n (Fds nx ((dirfd, ODir d) :: os)) = o -> o <> Fuel -> meets k want f o.
Proof.
  induction fuel as [|fuel IH]; intros n id dirfd d f nx os A O FR D NX o E NF; [cbn in E; subst o; congruence|].
  assert (FO : forall m, d_next f <= m -> filter (fun p : nat * object => negb (fst p =? m)) os = os).
  { intros m M. apply filter_old. intros p P. rewrite <- O in P. specialize (FR p P). lia. }
  cbn [search_loop] in E. unfold fd_dir in E. cbn [d_open find fst] in E. rewrite Nat.eqb_refl in E.
  destruct (k_file k n d) eqn:F.
  - unfold fd_new, finish, fd_close in E. cbn [d_next d_open existsb fst filter] in E. subst nx.
    replace (S dirfd =? dirfd) with false in E by (symmetry; apply Nat.eqb_neq; lia). rewrite Nat.eqb_refl in E. cbn [orb negb] in E. rewrite FO in E by lia. subst o. cbn [meets].
    exists n, d, id. repeat split; auto.
    + cbn [d_open]. rewrite O. reflexivity.
    + intros I. apply in_map_iff in I. destruct I as (p & P1 & P2). specialize (FR p P2). lia.
    + intros p [<-|P]; cbn [fst d_next]; [lia|]. rewrite <- O in P. specialize (FR p P). lia.
  - destruct (k_up k n d) as [d'|] eqn:U.
    + unfold fd_new, fd_close in E. cbn [d_next d_open existsb fst filter] in E. subst nx.
      replace (S dirfd =? dirfd) with false in E by (symmetry; apply Nat.eqb_neq; lia). rewrite Nat.eqb_refl in E. cbn [orb negb] in E. rewrite FO in E by lia.
      cbn [d_open find fst] in E. rewrite Nat.eqb_refl in E.
      assert (CL : forall i, finish (Some (S dirfd)) None want i (Fds (S (S dirfd)) ((S dirfd, ODir d') :: os)) = Ret None None (Fds (S (S dirfd)) os)).
      { intros i. unfold finish, fd_close. cbn [d_next d_open existsb fst filter]. rewrite Nat.eqb_refl. cbn [orb negb]. rewrite FO by lia. reflexivity. }
      assert (FR' : forall nx, dirfd <= nx -> fresh (Fds nx os)).
      { intros nx L p P. cbn [d_open d_next] in *. rewrite <- O in P. specialize (FR p P). lia. }
      destruct (k_stat k (S n) d') as [id'|] eqn:S'.
      * destruct (ident_eqb_spec id id') as [<-|NE].
        -- rewrite CL in E. subst o. cbn [meets d_open]. repeat split; [eapply is_root; eauto|auto|apply FR'; lia].
        -- assert (A' : above k (S n) d' id') by (eapply above_up; eauto).
           assert (DD : dirfd <= S dirfd) by lia. specialize (IH (S n) id' (S dirfd) d' (Fds (S dirfd) os) (S (S dirfd)) os A' eq_refl (FR' _ DD) eq_refl eq_refl o E NF).
           destruct o as [| |[fd|] l f']; cbn [meets d_open] in *; rewrite ?O in *; exact IH.
      * rewrite CL in E. subst o. cbn [meets d_open]. repeat split; [eapply no_ident; eauto|auto|apply FR'; lia].
    + unfold fd_close, finish in E. cbn [d_next d_open existsb fst filter] in E. rewrite Nat.eqb_refl in E. cbn [orb negb] in E. rewrite FO in E by lia. subst o. cbn [meets d_open].
      repeat split; [eapply no_parent; eauto|auto|]. intros p P. cbn [d_open d_next] in *. rewrite <- O in P. specialize (FR p P). lia.
Qed.
Lemma loop_fuel : forall fuel n id dirfd d nx os, above k n d id -> (forall p, In p os -> fst p < dirfd) -> dirfd < nx ->
  search_loop k want fuel n id dirfd n (Fds nx ((dirfd, ODir d) :: os)) = Fuel -> exists d' e', above k (n + fuel) d' e'.
Proof.
  assert (FN : forall a b i f, finish a b want i f <> Fuel). { intros a b i f. unfold finish. destruct (match a with Some n => fd_close n f | None => Some f end); discriminate. }
  induction fuel as [|fuel IH]; intros n id dirfd d nx os A FR L E; [rewrite Nat.add_0_r; eauto|].
  cbn [search_loop] in E. unfold fd_dir in E. cbn [d_open find fst] in E. rewrite Nat.eqb_refl in E.
  destruct (k_file k n d) eqn:F; [destruct (fd_new (OFile d) _); apply FN in E; destruct E|].
  destruct (k_up k n d) as [d'|] eqn:U.
  - unfold fd_new, fd_close in E. cbn [d_next d_open existsb fst filter] in E.
    replace (nx =? dirfd) with false in E by (symmetry; apply Nat.eqb_neq; lia). rewrite Nat.eqb_refl in E. cbn [orb negb] in E. rewrite filter_old in E by exact FR.
    cbn [d_open find fst] in E. rewrite Nat.eqb_refl in E.
    destruct (k_stat k (S n) d') as [id'|] eqn:S'; [|apply FN in E; destruct E].
    destruct (ident_eqb_spec id id') as [<-|NE]; [apply FN in E; destruct E|].
    rewrite <- Nat.add_succ_comm. apply (IH (S n) id' nx d' (S nx) os); [eapply above_up; eauto| |lia|exact E].
    intros p P. specialize (FR p P). lia.
  - unfold fd_close in E. cbn [d_next d_open existsb fst filter] in E. rewrite Nat.eqb_refl in E. cbn [orb negb] in E. apply FN in E. destruct E.
Qed.
End Loop.

(** ** The theorems *)

(** Whatever the kernel answers: a file returned is in a directory of the chain, none before
    has it, the number stored is that of the steps; -1 is returned only if the chain ends, at
    the root or with an error; no descriptor but the one returned is left open. *)
Theorem C69_search : forall k want fuel f, fresh f -> searchpath k want fuel f <> Fuel -> meets k want f (searchpath k want fuel f).
Proof.
  intros k want fuel f FR NF. unfold searchpath in *. destruct (k_cwd k) as [d|] eqn:C.
  - unfold fd_new in *. destruct (k_stat k 0 d) as [id|] eqn:S0.
    + eapply loop_ok; [apply above_here; eauto| |exact FR| | |reflexivity|exact NF]; reflexivity.
    + unfold finish, fd_close. cbn [d_next d_open existsb fst filter]. rewrite Nat.eqb_refl. cbn [orb negb]. rewrite filter_old by exact FR. cbn [meets d_open].
      repeat split; [eapply no_stat; eauto|]. intros p P. cbn [d_open d_next] in *. specialize (FR p P). lia.
  - cbn [meets]. repeat split; auto. apply no_cwd, C.
Qed.

(** The loop ends unless there are as many different directories on the way up as it has gone
    round. *)
Theorem C69_ends : forall k want fuel f, fresh f -> (forall d e, ~ above k fuel d e) -> searchpath k want fuel f <> Fuel.
Proof.
  intros k want fuel f FR NA E. unfold searchpath in E. destruct (k_cwd k) as [d|] eqn:C; [|discriminate].
  unfold fd_new in E. destruct (k_stat k 0 d) as [id|] eqn:S0.
  - eapply loop_fuel in E; [|apply above_here; eauto|exact FR|lia]. destruct E as (d' & e' & A). exact (NA _ _ A).
  - unfold finish in E. destruct (fd_close _ _) in E; discriminate.
Qed.

(** A tree of directories that stays as it is: [parent] leads upwards, the root being its own
    parent; the file is found in the nearest directory that has it, if any does. *)
Fixpoint nth_parent (parent : nat -> nat) (n : nat) (d : nat) : nat := match n with 0 => d | S m => parent (nth_parent parent m d) end.
Definition tree (cwd : nat) (parent : nat -> nat) (has : nat -> bool) (id : nat -> ident) : kernel :=
  Kernel (Some cwd) (fun _ d => Some (id d)) (fun _ d => has d) (fun _ d => Some (parent d)).
Lemma above_tree : forall cwd parent has id n d e, above (tree cwd parent has id) n d e ->
  d = nth_parent parent n cwd /\ e = id d /\ forall j, j < n -> has (nth_parent parent j cwd) = false /\ id (nth_parent parent (S j) cwd) <> id (nth_parent parent j cwd).
Proof.
  induction 1 as [d e C S0|n d e d' e' A (IH1 & IH2 & IH3) F U S' NE]; cbn [tree k_cwd k_stat k_file k_up] in *.
  - inversion C. inversion S0. subst. repeat split; lia.
  - inversion U. inversion S'. subst. split; [reflexivity|]. split; [reflexivity|]. intros j J. destruct (Nat.eq_dec j n) as [->|]; [|apply IH3; lia]. split; [exact F|exact NE].
Qed.
Lemma stays : forall parent m d, nth_parent parent (S m) d = nth_parent parent m d -> forall j, m <= j -> nth_parent parent j d = nth_parent parent m d.
Proof. intros parent m d R j L. induction L as [|j L IH]; [reflexivity|]. cbn [nth_parent] in *. rewrite IH. exact R. Qed.
Theorem C69_nearest : forall cwd parent has id m want fuel f,
  (forall a b, id a = id b -> a = b) -> nth_parent parent (S m) cwd = nth_parent parent m cwd -> m < fuel -> fresh f ->
  (exists n fd f', has (nth_parent parent n cwd) = true /\ (forall j, j < n -> has (nth_parent parent j cwd) = false) /\
     searchpath (tree cwd parent has id) want fuel f = Ret (Some fd) (if want then Some n else None) f' /\
     d_open f' = (fd, OFile (nth_parent parent n cwd)) :: d_open f) \/
  (exists f', (forall j, has (nth_parent parent j cwd) = false) /\
     searchpath (tree cwd parent has id) want fuel f = Ret None None f' /\ d_open f' = d_open f).
Proof.
  intros cwd parent has id m want fuel f INJ R L FR. set (k := tree cwd parent has id).
  assert (NF : searchpath k want fuel f <> Fuel).
  { apply C69_ends; [exact FR|]. intros d e A. apply above_tree in A. destruct A as (_ & _ & A). destruct (A m L) as [_ NE]. apply NE. rewrite R. reflexivity. }
  pose proof (C69_search k want fuel f FR NF) as M. destruct (searchpath k want fuel f) as [| |[fd|] l f']; cbn [meets] in M; try contradiction.
  - left. destruct M as (n & d & e & A & F & -> & O & _). apply above_tree in A. destruct A as (-> & _ & A). exists n, fd, f'. repeat split; auto. intros j J. apply A, J.
  - right. destruct M as (H & -> & O & _). exists f'. split; [|auto].
    destruct H as [C|d C S0|n d e A F U|n d e d' A F U S'|n d e d' A F U S']; try discriminate.
    apply above_tree in A. destruct A as (-> & -> & A). inversion U; subst d'. inversion S' as [E]. apply INJ in E. change (nth_parent parent (S n) cwd = nth_parent parent n cwd) in E.
    intros j. destruct (le_lt_dec n j) as [D|D]; [rewrite (stays _ _ _ E j D); exact F|apply A, D].
Qed.

(** ** Cases *)
(** Directory 0 is the root, [d] is in [d - 1]; the file is in 2, the current directory is 4;
    descriptors 0 to 2 are open. *)
Definition ex_tree : kernel := tree 4 (fun d => d - 1) (fun d => d =? 2) (fun d => (1%N, N.of_nat d)).
Definition ex_fds : fds := Fds 3 [(2, OFile 9); (1, OFile 9); (0, OFile 9)].
Example C69_ex_fresh : fresh ex_fds.
Proof. intros p H. cbn in H. intuition (subst; cbn; lia). Qed.
Example C69_ex_search : searchpath ex_tree true 5 ex_fds = Ret (Some 6) (Some 2) (Fds 7 ((6, OFile 2) :: d_open ex_fds)).
Proof. reflexivity. Qed.
Example C69_ex_ends : forall d e, ~ above ex_tree 5 d e.
Proof. intros d e A. apply above_tree in A. destruct A as (_ & _ & A). destruct (A 4 ltac:(lia)) as [_ NE]. apply NE. reflexivity. Qed.
Example C69_ex_nearest : (forall a b, (1%N, N.of_nat a) = (1%N, N.of_nat b) -> a = b) /\ nth_parent (fun d => d - 1) 5 4 = nth_parent (fun d => d - 1) 4 4.
Proof. split; [|reflexivity]. intros a b E. inversion E. lia. Qed.
(** Without the file, and with a directory above that may not be opened. *)
Example C69_ex_none : searchpath (tree 4 (fun d => d - 1) (fun d => false) (fun d => (1%N, N.of_nat d))) true 5 ex_fds = Ret None None (Fds 9 (d_open ex_fds)).
Proof. reflexivity. Qed.
Example C69_ex_denied : searchpath (Kernel (Some 4) (fun _ d => Some (1%N, N.of_nat d)) (fun _ d => d =? 2) (fun _ d => if d =? 3 then None else Some (d - 1))) true 5 ex_fds = Ret None None (Fds 5 (d_open ex_fds)).
Proof. reflexivity. Qed.

Print Assumptions C69_search.
Print Assumptions C69_ends.
Print Assumptions C69_nearest.
