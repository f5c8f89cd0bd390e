(** C43: arena allocations never overlap. *)
From Coq Require Import NArith ZArith Lia.
From Verif Require Import Base ArenaModel ArenaProofs.
Open Scope N_scope.

(** ** A client of an arena.
    It keeps a list of its allocations with what they must contain ([o_data]) and how many
    scopes were entered when they were made ([o_depth]).  [c_hist] remembers the frames at
    each scope entered. *)
Inductive aop := OEnter | OLeave | OMalloc (n : N) (m : sys) | OCalloc (k n : N) (m : sys) | ORealloc (i : nat) (n : N) (m : sys) | OWrite (i : nat) (off : nat) (d : bytes).

Definition upd (i : nat) (o : obj) (l : list obj) : list obj := firstn i l ++ o :: skipn (S i) l.
(** Contents after reallocation: what fits of the old, then anything. *)
Definition redata (old : bytes) (n : N) (junk : bytes) : bytes := firstn (N.to_nat n) (old ++ skipn (length old) junk).

Definition cstep (o : aop) (c : client) : res client :=
  let a := c_a c in
  match o with
  | OEnter => match enter a with Some (s, a') => Ret (mkclient a' (s :: c_scopes c) (c_objs c) (a_frames a :: c_hist c)) | None => Trap end
  | OLeave =>
      match c_scopes c with
      | [] => Ret c
      | s :: ss => Ret (mkclient (leave s a) ss (filter (fun o => Nat.leb (o_depth o) (length ss)) (c_objs c)) (tl (c_hist c)))
      end
  | OMalloc n m =>
      match c_scopes c with
      | [] => Ret c
      | s :: ss => match malloc s n m a with
          | Ret (p, a') => Ret (mkclient a' (c_scopes c) (c_objs c ++ [mkobj p n (readn (a_mem a') p (N.to_nat n)) (length (c_scopes c))]) (c_hist c))
          | Exit => Exit | Trap => Trap end
      end
  | OCalloc k n m =>
      match c_scopes c with
      | [] => Ret c
      | s :: ss => match calloc s k n m a with
          | Ret (p, a') => Ret (mkclient a' (c_scopes c) (c_objs c ++ [mkobj p (k * n) (repeat NUL (N.to_nat (k * n))) (length (c_scopes c))]) (c_hist c))
          | Exit => Exit | Trap => Trap end
      end
  | ORealloc i n m =>
      match c_scopes c, nth_error (c_objs c) i with
      | s :: ss, Some o => match realloc s (o_addr o) (o_size o) n m a with
          | Ret (Some p, a') => Ret (mkclient a' (c_scopes c) (upd i (mkobj p n (redata (o_data o) n (readn (a_mem a') p (N.to_nat n))) (length (c_scopes c))) (c_objs c)) (c_hist c))
          | Ret (None, _) => Trap
          | Exit => Exit | Trap => Trap end
      | _, _ => Ret c
      end
  | OWrite i off d =>
      match nth_error (c_objs c) i with
      | Some o =>
          if Nat.leb (off + length d) (length (o_data o)) then
            Ret (mkclient (set_mem (blit (o_addr o + N.of_nat off) d (a_mem a)) a) (c_scopes c)
              (upd i (mkobj (o_addr o) (o_size o) (firstn off (o_data o) ++ d ++ skipn (off + length d) (o_data o)) (o_depth o)) (c_objs c)) (c_hist c))
          else Ret c
      | None => Ret c
      end
  end.
(** malloc(3) delivers aligned memory that overlaps no frame in use. *)
Definition aop_ok (o : aop) (c : client) : Prop :=
  match o with OMalloc n m | ORealloc _ n m => msys_ok (c_a c) n m | OCalloc k n m => msys_ok (c_a c) (k * n) m | _ => True end.
Fixpoint crun (os : list aop) (c : client) : res client := match os with [] => Ret c | o :: r => match cstep o c with Ret c => crun r c | x => x end end.
Fixpoint aops_ok (os : list aop) (c : client) : Prop := match os with [] => True | o :: r => aop_ok o c /\ match cstep o c with Ret c => aops_ok r c | _ => True end end.

(** ** What is claimed of every state. *)
Definition disjoint (p n q k : N) : Prop := forall x, p <= x < p + n -> q <= x < q + k -> False.
Record sound (c : client) : Prop := {
  (* allocations are aligned and lie inside of a frame, behind its header *)
  so_aligned : forall o, In o (c_objs c) -> o_addr o mod 8 = 0;
  so_inside : forall o, In o (c_objs c) -> exists f, In f (a_frames (c_a c)) /\ f_ptr f + FRAME <= o_addr o /\ o_addr o + o_size o <= f_ptr f + f_size f;
  (* frames do not overlap *)
  so_frames : forall i j f g, i <> j -> nth_error (a_frames (c_a c)) i = Some f -> nth_error (a_frames (c_a c)) j = Some g -> disjoint (f_ptr f) (f_size f) (f_ptr g) (f_size g);
  (* allocations do not overlap *)
  so_disjoint : forall i j o p, i <> j -> nth_error (c_objs c) i = Some o -> nth_error (c_objs c) j = Some p -> disjoint (o_addr o) (o_size o) (o_addr p) (o_size p);
  (* and contain what was put there *)
  so_data : forall o, In o (c_objs c) -> readn (a_mem (c_a c)) (o_addr o) (N.to_nat (o_size o)) = o_data o
}.

Lemma pw_nth : forall A (R : A -> A -> Prop), (forall x y, R x y -> R y x) -> forall l, pw R l -> forall i j x y, i <> j -> nth_error l i = Some x -> nth_error l j = Some y -> R x y.
Proof.
  intros A R S. induction l as [|z l IH]; intros P i j x y N X Y; [destruct i; discriminate|]. cbn [pw] in P. destruct P as [P1 P2].
  destruct i as [|i], j as [|j]; cbn [nth_error] in *; [congruence| | |].
  - inversion X; subst. apply P1. eapply nth_error_In. exact Y.
  - inversion Y; subst. apply S. apply P1. eapply nth_error_In. exact X.
  - apply (IH P2 i j x y); [congruence|exact X|exact Y].
Qed.
Lemma cinv_sound : forall c L, cinv c L -> sound c.
Proof.
  intros c L I. pose proof (ci_objs _ _ I) as E. constructor.
  - intros o Ho. rewrite E in Ho. apply in_map_iff in Ho. destruct Ho as (x & <- & Hx). destruct (ci_inside _ _ _ I Hx) as ([k K] & _). rewrite K, N.mul_comm. apply N.mod_mul. discriminate.
  - intros o Ho. rewrite E in Ho. apply in_map_iff in Ho. destruct Ho as (x & <- & Hx). destruct (inside_bounds _ _ _ (ci_frames _ _ I) (ci_inside _ _ _ I Hx)) as (f & F1 & F2 & F3 & F4). exists f. repeat split; try assumption. lia.
  - intros i j f g N Hf Hg. pose proof (pw_nth _ _ apart_sym _ (proj2 (ci_frames _ _ I)) i j f g N Hf Hg) as A. unfold disjoint. unfold apart in A. intros x. lia.
  - intros i j o p N Ho Hp. rewrite E in Ho, Hp. rewrite nth_error_map in Ho, Hp. destruct (nth_error L i) as [x|] eqn:Ex; [|discriminate]. destruct (nth_error L j) as [y|] eqn:Ey; [|discriminate]. cbn in Ho, Hp. inversion Ho; inversion Hp; subst.
    pose proof (pw_nth _ _ sep_sym _ (ci_sep _ _ I) i j x y N Ex Ey) as S.
    destruct (ci_inside _ _ _ I (nth_error_In _ _ Ex)) as (_ & S1 & _). destruct (ci_inside _ _ _ I (nth_error_In _ _ Ey)) as (_ & S2 & _).
    unfold disjoint. unfold sep in S. intros z. lia.
  - intros o Ho. rewrite E in Ho. apply in_map_iff in Ho. destruct Ho as (x & <- & Hx). apply (ci_data _ _ I). exact Hx.
Qed.

Lemma len_data : forall c L x, cinv c L -> In x L -> length (o_data (fst x)) = N.to_nat (o_size (fst x)).
Proof. intros c L x I H. rewrite <- (ci_data _ _ I x H). apply readn_length. Qed.

(** A new object put at some place of the list; [a'] is the arena after allocating it. *)
Lemma put_new : forall c L a' A B p n d cap,
  cinv c L -> (forall x, In x (A ++ B) -> In x L) -> pw sep (A ++ B) ->
  same_conf (c_a c) a' -> frames_ok (a_frames a') -> a_frames a' <> [] ->
  (forall scopes hist L, marks (a_poison (c_a c)) (a_frames (c_a c)) scopes hist L -> marks (a_poison (c_a c)) (a_frames a') scopes hist L) ->
  inside (a_poison (c_a c)) (a_frames a') (mkobj p n d (length (c_scopes c)), cap) ->
  (forall y, In y (A ++ B) -> sep (mkobj p n d (length (c_scopes c)), cap) y) ->
  (forall x, In x (A ++ B) -> readn (a_mem a') (o_addr (fst x)) (N.to_nat (o_size (fst x))) = o_data (fst x)) ->
  readn (a_mem a') p (N.to_nat n) = d ->
  cinv (mkclient a' (c_scopes c) (List.map fst A ++ mkobj p n d (length (c_scopes c)) :: List.map fst B) (c_hist c)) (A ++ (mkobj p n d (length (c_scopes c)), cap) :: B).
Proof.
  intros c L a' A B p n d cap I SUB PW (C1 & C2 & C3) FO NE MK IN SP DT DN. destruct I. constructor; cbn [c_a c_scopes c_objs c_hist].
  - rewrite map_app. reflexivity.
  - rewrite C2. assumption.
  - rewrite C1. assumption.
  - exact FO.
  - exact NE.
  - rewrite C3. assumption.
  - rewrite C2. apply marks_more with (L := A ++ B); [|reflexivity|exact IN|reflexivity]. apply MK. eapply marks_less; eauto.
  - intros x Hx. apply in_app_or in Hx. destruct Hx as [Hx|[<-|Hx]]; [|cbn; lia|]; apply ci_depth; apply SUB; apply in_or_app; auto.
  - apply pw_mid; [apply sep_sym|]. split; [exact PW|exact SP].
  - intros x Hx. apply in_app_or in Hx. destruct Hx as [Hx|[<-|Hx]]; [| exact DN|]; apply DT; apply in_or_app; auto.
Qed.

Lemma allocated_new : forall c L a' p n, cinv c L -> allocated (c_a c) a' p n -> exists cap, forall d, readn (a_mem a') p (N.to_nat n) = d ->
  forall A B, (forall x, In x (A ++ B) -> In x L) -> pw sep (A ++ B) ->
  cinv (mkclient a' (c_scopes c) (List.map fst A ++ mkobj p n d (length (c_scopes c)) :: List.map fst B) (c_hist c)) (A ++ (mkobj p n d (length (c_scopes c)), cap) :: B).
Proof.
  intros c L a' p n I (CF & FO & SM & GR & cap & H). exists cap. intros d D A B SUB PW. destruct (H (mkobj p n d (length (c_scopes c))) eq_refl eq_refl) as [IN SP].
  eapply put_new; eauto.
  - destruct GR as [G|(mid & _ & G)]; eapply grown_some; exact G.
  - intros. eapply marks_allocated; eauto.
  - intros y Hy. apply SP. eapply ci_inside; eauto.
  - intros x Hx. rewrite <- (ci_data _ _ I x (SUB x Hx)). eapply keep_data; [apply (ci_frames _ _ I)|eapply ci_inside; eauto|exact SM].
Qed.

(** Writing inside of an object. *)
Lemma write_data : forall m p n off d data, readn m p n = data -> (off + length d <= n)%nat -> readn (blit (p + N.of_nat off) d m) p n = firstn off data ++ d ++ skipn (off + length d) data.
Proof.
  intros m p n off d data E H. subst data. apply (list_ext _ _ NUL).
  - rewrite readn_length, !app_length, firstn_length, skipn_length, readn_length. lia.
  - intros i Hi. rewrite readn_length in Hi. rewrite nth_readn by exact Hi.
    destruct (Nat.lt_ge_cases i off) as [A|A].
    + rewrite blit_out by lia. rewrite app_nth1 by (rewrite firstn_length, readn_length; lia).
      assert (Q : nth i (firstn off (readn m p n)) NUL = nth i (readn m p n) NUL).
      { rewrite <- (firstn_skipn off (readn m p n)) at 2. rewrite app_nth1; [reflexivity|]. rewrite firstn_length, readn_length. lia. }
      rewrite Q. rewrite nth_readn by exact Hi. reflexivity.
    + rewrite app_nth2 by (rewrite firstn_length, readn_length; lia). rewrite firstn_length, readn_length. replace (Nat.min off n) with off by lia.
      destruct (Nat.lt_ge_cases i (off + length d)) as [B|B].
      * rewrite app_nth1 by lia. replace (p + N.of_nat i) with (p + N.of_nat off + N.of_nat (i - off)) by lia. rewrite blit_in by lia. reflexivity.
      * rewrite app_nth2 by lia. rewrite blit_out by lia. 
        assert (Q : nth (i - off - length d) (skipn (off + length d) (readn m p n)) NUL = nth i (readn m p n) NUL).
        { rewrite <- (firstn_skipn (off + length d) (readn m p n)) at 2. rewrite app_nth2; [|rewrite firstn_length, readn_length; lia]. rewrite firstn_length, readn_length. f_equal. lia. }
        rewrite Q. rewrite nth_readn by exact Hi. reflexivity.
Qed.

Lemma upd_split : forall A x B o, upd (length A) o (A ++ x :: B) = A ++ o :: B.
Proof.
  intros A x B o. unfold upd. rewrite firstn_app, firstn_all, Nat.sub_diag. cbn [firstn]. rewrite app_nil_r. f_equal. f_equal.
  change (x :: B) with ([x] ++ B). rewrite app_assoc. replace (S (length A)) with (length (A ++ [x])) by (rewrite app_length; cbn; lia). rewrite skipn_app, skipn_all, Nat.sub_diag. reflexivity.
Qed.
Lemma nth_map_split : forall (L : list (obj * N)) i o, nth_error (List.map fst L) i = Some o -> exists A cap B, L = A ++ (o, cap) :: B /\ length (List.map fst A) = i.
Proof.
  intros L i o H. rewrite nth_error_map in H. destruct (nth_error L i) as [[o' cap]|] eqn:E; [|discriminate]. cbn in H. inversion H; subst o'.
  destruct (nth_error_split _ _ E) as (A & B & -> & Hl). exists A, cap, B. rewrite map_length. auto.
Qed.

Lemma pop_mark : forall s fs F, frames_ok fs -> mark s fs F -> rewind (s_len s) (pop_frames (Some (s_frame s)) fs) = F.
Proof.
  intros s fs F FO (newer & fr & older & -> & -> & E1 & E2 & E3 & E4).
  assert (P : pop_frames (Some (s_frame s)) (newer ++ fr :: older) = fr :: older).
  { induction newer as [|g newer IH]; cbn [app pop_frames].
    - rewrite E1, N.eqb_refl. reflexivity.
    - destruct (N.eqb_spec (f_ptr g) (s_frame s)) as [E|E].
      + exfalso. destruct FO as [FO [PW _]]. specialize (PW fr (in_or_app _ _ _ (or_intror (in_eq _ _)))).
        pose proof (FO g (or_introl eq_refl)) as G. pose proof (FO fr (or_intror (in_or_app _ _ _ (or_intror (in_eq _ _))))) as R. destruct G, R. unfold apart in PW. unfold FRAME in *. lia.
      + apply IH. destruct FO as [FO [_ PW]]. split; [intros h Hh; apply FO; right; exact Hh|exact PW]. }
  rewrite P. cbn [rewind]. destruct (N.leb_spec (s_len s) (f_len fr)); [reflexivity|lia].
Qed.
Lemma mark_frames : forall s fs F, frames_ok fs -> mark s fs F -> frames_ok F /\ F <> [].
Proof.
  intros s fs F [FO PW] (newer & fr & older & -> & -> & E1 & E2 & E3 & E4). split; [|discriminate]. apply frames_top.
  - split; [intros h Hh; apply FO; apply in_or_app; right; exact Hh|]. eapply pw_app_r. exact PW.
  - exact E3.
  - assert (I : In fr (newer ++ fr :: older)) by (apply in_or_app; right; left; reflexivity). destruct (FO fr I). lia.
  - exact E4.
Qed.
Lemma filter_map_fst : forall (f : obj -> bool) (L : list (obj * N)), filter f (List.map fst L) = List.map fst (filter (fun x => f (fst x)) L).
Proof. intros f. induction L as [|x L IH]; cbn [List.map filter]; [reflexivity|]. destruct (f (fst x)); cbn [List.map]; rewrite IH; reflexivity. Qed.

Lemma step_inv : forall o c L, cinv c L -> aop_ok o c -> cstep o c = Exit \/ exists c' L', cstep o c = Ret c' /\ cinv c' L' /\
  (o = OLeave -> c_scopes c <> [] -> c_hist c = a_frames (c_a c') :: c_hist c').
Proof.
  intros o c L I OK. pose proof (ci_objs _ _ I) as EO. destruct o as [| |n m|k n m|i n m|i off d]; cbn [cstep aop_ok] in *.
  - right. unfold enter. destruct (a_frames (c_a c)) as [|f r] eqn:Ef; [exfalso; exact (ci_some _ _ I Ef)|]. eexists _, L. split; [reflexivity|]. split; [|discriminate].
    destruct I. constructor; cbn [c_a c_scopes c_objs c_hist a_frames a_poison a_fsize a_refs a_mem length]; try assumption. 
    + rewrite Ef in ci_frames. exact ci_frames.
    + discriminate.
    + congruence.
    + rewrite Ef in ci_marks, ci_frames. cbn [marks s_id length]. split; [|split; [|split]].
      * intros x Hx _. destruct (c_scopes c); cbn [marks] in ci_marks; apply (proj1 ci_marks); auto.
      * congruence.
      * destruct ci_frames as [FO _]. destruct (FO f (or_introl eq_refl)). exists [], f, r. cbn [app s_frame s_len]. split; [reflexivity|]. split; [destruct f; reflexivity|]. split; [reflexivity|]. split; [lia|]. split; assumption.
      * exact ci_marks.
    + intros x Hx. specialize (ci_depth x Hx). lia.
  - right. destruct (c_scopes c) as [|s ss] eqn:Es; [exists c, L; split; [reflexivity|]; split; [exact I|congruence]|].
    pose proof (ci_marks _ _ I) as M. rewrite Es in M. cbn [marks] in M. destruct (c_hist c) as [|F hs] eqn:Eh; [tauto|]. destruct M as (M1 & M2 & M3 & M4).
    assert (R : Nat.eqb (a_refs (c_a c)) 1 = false) by (rewrite (ci_refs _ _ I), Es; reflexivity).
    eexists _, (filter (fun x => Nat.leb (o_depth (fst x)) (length ss)) L). split; [reflexivity|].
    assert (FR : a_frames (leave s (c_a c)) = F) by (unfold leave; rewrite R; cbn [a_frames]; apply pop_mark; [apply (ci_frames _ _ I)|exact M3]).
    split.
    + destruct (mark_frames _ _ _ (ci_frames _ _ I) M3) as [FO' NE']. destruct I. constructor; cbn [c_a c_scopes c_objs c_hist]; auto.
      * rewrite EO. apply filter_map_fst.
      * rewrite FR. exact FO'.
      * rewrite FR. exact NE'.
      * unfold leave. cbn [a_refs]. rewrite ci_refs, Es. reflexivity.
      * rewrite FR. unfold leave. cbn [a_poison tl]. eapply marks_less; [exact M4|]. intros x Hx. apply filter_In in Hx. tauto.
      * intros x Hx. apply filter_In in Hx. destruct Hx as [_ Hx]. apply Nat.leb_le in Hx. exact Hx.
      * apply pw_filter. exact ci_sep.
      * intros x Hx. apply filter_In in Hx. unfold leave. cbn [a_mem]. apply ci_data. tauto.
    + intros _ _. cbn [c_a c_hist tl]. rewrite FR. reflexivity.
  - destruct (c_scopes c) as [|s ss] eqn:Es; [right; exists c, L; split; [reflexivity|]; split; [exact I|discriminate]|].
    destruct (malloc_ok s n m (c_a c) (ci_poison _ _ I) (ci_fsize _ _ I) (ci_frames _ _ I) (ci_valid _ _ _ _ I Es) OK) as [E|(p & a' & E & AL)]; rewrite E; [left; reflexivity|right].
    destruct (allocated_new c L a' p n I AL) as (cap & H). specialize (H _ eq_refl L []). rewrite app_nil_r in H. specialize (H (fun x Hx => Hx) (ci_sep _ _ I)).
    rewrite EO. rewrite <- Es. eexists _, _. split; [reflexivity|]. split; [exact H|discriminate].
  - destruct (c_scopes c) as [|s ss] eqn:Es; [right; exists c, L; split; [reflexivity|]; split; [exact I|discriminate]|].
    unfold calloc. destruct (SIZE_LIMIT <=? k * n); [left; reflexivity|].
    destruct (malloc_ok s (k * n) m (c_a c) (ci_poison _ _ I) (ci_fsize _ _ I) (ci_frames _ _ I) (ci_valid _ _ _ _ I Es) OK) as [E|(p & a' & E & AL)]; rewrite E; [left; reflexivity|right].
    set (z := repeat NUL (N.to_nat (k * n))). set (a2 := set_mem (blit p z (a_mem a')) a').
    assert (LZ : length z = N.to_nat (k * n)) by (unfold z; apply repeat_length).
    destruct AL as (CF & FO & SM & GR & cap & H). destruct (H (mkobj p (k * n) z (length (c_scopes c))) eq_refl eq_refl) as [IN SP].
    rewrite EO. rewrite <- Es. eexists _, (L ++ [(mkobj p (k * n) z (length (c_scopes c)), cap)]). split; [reflexivity|]. split; [|discriminate].
    apply (put_new c L a2 L [] p (k * n) z cap I); rewrite ?app_nil_r; auto.
    + apply (ci_sep _ _ I).
    + destruct GR as [G|(mid & _ & G)]; eapply grown_some; exact G.
    + intros. eapply marks_allocated; eauto.
    + intros y Hy. apply SP. eapply ci_inside; eauto.
    + intros x Hx. rewrite <- (ci_data _ _ I x Hx). rewrite <- (keep_data _ _ _ _ x (ci_frames _ _ I) (ci_inside _ _ _ I Hx) SM).
      apply readn_ext. intros j Hj. unfold a2. cbn [set_mem a_mem]. apply blit_out. rewrite LZ.
      pose proof (SP x (ci_inside _ _ _ I Hx)) as S. unfold sep in S. cbn [fst snd o_addr] in S.
      destruct IN as (_ & S1 & _). destruct (ci_inside _ _ _ I Hx) as (_ & S2 & _). cbn [fst snd o_size] in S1. lia.
    + unfold a2. cbn [set_mem a_mem]. pose proof (write_data (a_mem a') p (N.to_nat (k * n)) 0 z _ eq_refl) as W. rewrite LZ in W. cbn [Nat.add firstn app N.of_nat] in W. rewrite N.add_0_r in W.
      rewrite W by lia. rewrite skipn_all2 by (rewrite readn_length; lia). apply app_nil_r.
  - destruct (c_scopes c) as [|s ss] eqn:Es; [right; exists c, L; split; [reflexivity|]; split; [exact I|discriminate]|].
    destruct (nth_error (c_objs c) i) as [o|] eqn:Eo; [|right; exists c, L; split; [reflexivity|]; split; [exact I|discriminate]].
    rewrite EO in Eo. destruct (nth_map_split _ _ _ Eo) as (A & cap0 & B & EL & Ei).
    assert (Io : In (o, cap0) L) by (rewrite EL; apply in_or_app; right; left; reflexivity).
    assert (SUB : forall x, In x (A ++ B) -> In x L) by (intros x Hx; rewrite EL; apply in_app_or in Hx; apply in_or_app; destruct Hx; [left|right; right]; assumption).
    pose proof (ci_sep _ _ I) as PW. rewrite EL in PW. apply pw_mid in PW; [|apply sep_sym]. destruct PW as [PW SPo].
    pose proof (len_data _ _ _ I Io) as LD. cbn [fst] in LD. pose proof (ci_data _ _ I _ Io) as DO. cbn [fst] in DO.
    unfold realloc. destruct (ci_inside _ _ _ I Io) as (AL0 & SZ0 & _). cbn [fst snd] in *. rewrite (land7 _ AL0). cbn [negb N.eqb].
    change (0 =? 0) with true. cbn [negb].
    destruct (realloc_fast (o_addr o) (o_size o) n (c_a c)) as [a'|] eqn:EF.
    + right. destruct (fast_ok o cap0 n (c_a c) a' (ci_poison _ _ I) (ci_frames _ _ I) (ci_inside _ _ _ I Io) EF) as (MM & CF & FO & GR & cap & H).
      rewrite EO, EL, map_app. cbn [List.map fst]. rewrite <- Ei. rewrite upd_split. rewrite <- Es.
      set (d := redata (o_data o) n (readn (a_mem a') (o_addr o) (N.to_nat n))).
      destruct (H (mkobj (o_addr o) n d (length (c_scopes c))) eq_refl eq_refl) as [IN SP].
      eexists _, (A ++ (mkobj (o_addr o) n d (length (c_scopes c)), cap) :: B). split; [reflexivity|]. split; [|discriminate].
      apply (put_new c L a' A B (o_addr o) n d cap I); auto.
      * destruct GR as [G|G]; [eapply grown_some; exact G|rewrite G; apply (ci_some _ _ I)].
      * intros sc hi L0 M0. destruct GR as [G|G]; [eapply marks_grown; eauto|rewrite G; exact M0].
      * intros y Hy. apply SP; [eapply ci_inside; eauto|]. apply SPo. exact Hy.
      * intros x Hx. rewrite MM. apply (ci_data _ _ I). auto.
      * rewrite MM. unfold d, redata. rewrite MM. rewrite <- DO.
        apply (list_ext _ _ NUL).
        -- rewrite readn_length, firstn_length, app_length, skipn_length, !readn_length. lia.
        -- intros j Hj. rewrite readn_length in Hj. rewrite nth_readn by exact Hj.
           assert (Q : forall l : bytes, nth j (firstn (N.to_nat n) l) NUL = nth j l NUL).
           { intros l. destruct (Nat.lt_ge_cases j (length l)) as [Z|Z].
             - rewrite <- (firstn_skipn (N.to_nat n) l) at 2. rewrite app_nth1; [reflexivity|]. rewrite firstn_length. lia.
             - rewrite !nth_overflow; auto. rewrite firstn_length. lia. }
           rewrite Q. rewrite readn_length. destruct (Nat.lt_ge_cases j (N.to_nat (o_size o))) as [Z|Z].
           ++ rewrite app_nth1 by (rewrite readn_length; exact Z). rewrite nth_readn by exact Z. reflexivity.
           ++ rewrite app_nth2 by (rewrite readn_length; exact Z). rewrite readn_length.
              assert (Q2 : nth (j - N.to_nat (o_size o)) (skipn (N.to_nat (o_size o)) (readn (a_mem (c_a c)) (o_addr o) (N.to_nat n))) NUL = nth j (readn (a_mem (c_a c)) (o_addr o) (N.to_nat n)) NUL).
              { rewrite <- (firstn_skipn (N.to_nat (o_size o)) (readn (a_mem (c_a c)) (o_addr o) (N.to_nat n))) at 2. rewrite app_nth2; [|rewrite firstn_length, readn_length; lia]. rewrite firstn_length, readn_length. f_equal. lia. }
              rewrite Q2. rewrite nth_readn by exact Hj. reflexivity.
    + assert (NO : o_size o < n).
      { unfold realloc_fast in EF. destruct (N.leb_spec n (o_size o)); [discriminate|assumption]. }
      destruct (malloc_ok s n m (c_a c) (ci_poison _ _ I) (ci_fsize _ _ I) (ci_frames _ _ I) (ci_valid _ _ _ _ I Es) OK) as [E|(p & a' & E & AL)]; rewrite E; [left; reflexivity|right].
      destruct AL as (CF & FO & SM & GR & cap & H).
      rewrite EO, EL, map_app. cbn [List.map fst]. rewrite <- Ei. rewrite upd_split. rewrite <- Es.
      assert (DO' : readn (a_mem a') (o_addr o) (N.to_nat (o_size o)) = o_data o).
      { rewrite <- DO. apply (keep_data _ _ _ _ (o, cap0) (ci_frames _ _ I) (ci_inside _ _ _ I Io) SM). }
      rewrite DO'. set (a2 := set_mem (blit p (o_data o) (a_mem a')) a'). set (d := redata (o_data o) n (readn (a_mem a2) p (N.to_nat n))).
      destruct (H (mkobj p n d (length (c_scopes c))) eq_refl eq_refl) as [IN SP].
      eexists _, (A ++ (mkobj p n d (length (c_scopes c)), cap) :: B). split; [reflexivity|]. split; [|discriminate].
      apply (put_new c L a2 A B p n d cap I); auto.
      * destruct GR as [G|(mid & _ & G)]; eapply grown_some; exact G.
      * intros. eapply marks_allocated; eauto.
      * intros y Hy. apply SP. eapply ci_inside; eauto.
      * intros x Hx. rewrite <- (ci_data _ _ I x (SUB x Hx)). rewrite <- (keep_data _ _ _ _ x (ci_frames _ _ I) (ci_inside _ _ _ I (SUB x Hx)) SM).
        apply readn_ext. intros j Hj. unfold a2. cbn [set_mem a_mem]. apply blit_out. rewrite LD.
        pose proof (SP x (ci_inside _ _ _ I (SUB x Hx))) as S. unfold sep in S. cbn [fst snd o_addr] in S.
        destruct IN as (_ & S1 & _). destruct (ci_inside _ _ _ I (SUB x Hx)) as (_ & S2 & _). cbn [fst snd o_size] in S1. lia.
      * unfold d. unfold a2. cbn [set_mem a_mem].
        pose proof (write_data (a_mem a') p (N.to_nat n) 0 (o_data o) _ eq_refl) as W. rewrite LD in W. cbn [Nat.add firstn app N.of_nat] in W. rewrite N.add_0_r in W.
        rewrite W by lia. unfold redata. rewrite skipn_app, skipn_all, Nat.sub_diag. cbn [app skipn].
        symmetry. apply firstn_all2. rewrite app_length, skipn_length, readn_length, LD. lia.
  - right. destruct (nth_error (c_objs c) i) as [o|] eqn:Eo; [|exists c, L; split; [reflexivity|]; split; [exact I|discriminate]].
    destruct (Nat.leb_spec (off + length d) (length (o_data o))) as [HW|HW]; [|exists c, L; split; [reflexivity|]; split; [exact I|discriminate]].
    rewrite EO in Eo. destruct (nth_map_split _ _ _ Eo) as (A & cap0 & B & EL & Ei).
    assert (Io : In (o, cap0) L) by (rewrite EL; apply in_or_app; right; left; reflexivity).
    pose proof (len_data _ _ _ I Io) as LD. cbn [fst] in LD. pose proof (ci_data _ _ I _ Io) as DO. cbn [fst] in DO.
    rewrite EO, EL, map_app. cbn [List.map fst]. rewrite <- Ei. rewrite upd_split.
    set (o' := mkobj (o_addr o) (o_size o) _ (o_depth o)).
    eexists _, (A ++ (o', cap0) :: B). split; [reflexivity|]. split; [|discriminate].
    pose proof (ci_sep _ _ I) as PW. rewrite EL in PW. apply pw_mid in PW; [|apply sep_sym]. destruct PW as [PW SPo].
    assert (SUB : forall x, In x (A ++ B) -> In x L) by (intros x Hx; rewrite EL; apply in_app_or in Hx; apply in_or_app; destruct Hx; [left|right; right]; assumption).
    assert (SP2 : forall x, In x (A ++ (o', cap0) :: B) -> x = (o', cap0) \/ In x (A ++ B)).
    { intros x Hx. apply in_app_or in Hx. rewrite in_app_iff. destruct Hx as [Hx|[Hx|Hx]]; auto. }
    constructor; cbn [c_a c_scopes c_objs c_hist set_mem a_frames a_poison a_fsize a_refs a_mem].
    + rewrite map_app. reflexivity.
    + apply (ci_poison _ _ I).
    + apply (ci_fsize _ _ I).
    + apply (ci_frames _ _ I).
    + apply (ci_some _ _ I).
    + apply (ci_refs _ _ I).
    + pose proof (ci_marks _ _ I) as M. revert M. clear - EL. subst L. generalize (a_frames (c_a c)) as fs. generalize (c_hist c) as hist. induction (c_scopes c) as [|s ss IH]; intros hist fs M; cbn [marks] in *.
      * split; [|tauto]. destruct M as [M _]. intros x Hx D. apply in_app_or in Hx. destruct Hx as [Hx|[<-|Hx]]; [apply M; auto; apply in_or_app; auto| |apply M; auto; apply in_or_app; right; right; exact Hx].
        apply (M (o, cap0)); [apply in_or_app; right; left; reflexivity|exact D].
      * destruct hist as [|F hs]; [tauto|]. destruct M as (M & M2 & M3 & M4). split; [|split; [exact M2|split; [exact M3|apply IH; exact M4]]].
        intros x Hx D. apply in_app_or in Hx. destruct Hx as [Hx|[<-|Hx]]; [apply M; auto; apply in_or_app; auto| |apply M; auto; apply in_or_app; right; right; exact Hx].
        apply (M (o, cap0)); [apply in_or_app; right; left; reflexivity|exact D].
    + intros x Hx. destruct (SP2 x Hx) as [->|Hx']; [apply (ci_depth _ _ I (o, cap0) Io)|apply (ci_depth _ _ I); auto].
    + apply pw_mid; [apply sep_sym|]. split; [exact PW|]. intros y Hy. exact (SPo y Hy).
    + intros x Hx. destruct (SP2 x Hx) as [->|Hx'].
      * cbn [fst o' o_addr o_size o_data]. apply write_data; [exact DO|lia].
      * rewrite <- (ci_data _ _ I x (SUB x Hx')). apply readn_ext. intros j Hj. apply blit_out.
        pose proof (SPo x Hx') as S. unfold sep in S. cbn [fst snd] in S. destruct (ci_inside _ _ _ I Io) as (_ & S1 & _). destruct (ci_inside _ _ _ I (SUB x Hx')) as (_ & S2 & _). cbn [fst snd] in S1. lia.
Qed.

(** ** From the start. *)
Definition start (a : arena) : client := mkclient a [] [] [].
Lemma start_inv : forall page poison mem m a, pok poison -> 2 <= page -> sys_ok [] m (16 * page) -> alloc page poison mem m = Ret a -> cinv (start a) [].
Proof.
  intros page poison mem m a HP PG SO. unfold alloc, frame_alloc. destruct m as [[p junk]|]; [|discriminate]. destruct (SO p junk eq_refl) as (A1 & A2 & _).
  cbn [a_poison a_frames a_fsize a_refs a_mem]. destruct (push poison (mkframe p (16 * page) 0) FRAME) as [[q f]|] eqn:E; [|discriminate]. intros H. inversion H; subst a. clear H.
  assert (AP : al (16 * page)) by (exists (2 * page); lia).
  destruct (push_ok poison (mkframe p (16 * page) 0) FRAME q f HP A1 AP (ex_intro _ 0 eq_refl) (N.le_0_l _) A2 E) as (E1 & E2 & E3 & E4 & E5 & E6). cbn [f_ptr f_size f_len] in *.
  constructor; cbn [start c_a c_scopes c_objs c_hist a_frames a_poison a_fsize a_refs a_mem List.map]; auto; try discriminate; try (intros x []).
  - split; [|cbn [pw]; split; [intros y []|exact I]]. intros g [<-|[]]. rewrite E2. constructor; cbn [f_ptr f_size f_len]; auto.
  - cbn [marks]. split; [intros x []|exact I].
  - cbn [pw]. exact I.
Qed.
Lemma run_inv : forall os c L, cinv c L -> aops_ok os c -> crun os c = Exit \/ exists c' L', crun os c = Ret c' /\ cinv c' L'.
Proof.
  induction os as [|o r IH]; intros c L I OK; cbn [crun aops_ok] in *; [right; exists c, L; auto|].
  destruct OK as [O1 O2]. destruct (step_inv o c L I O1) as [E|(c' & L' & E & I' & _)]; rewrite E in *; [left; reflexivity|]. eapply IH; eauto.
Qed.

(** States that a client can reach. *)
Definition reachable (c : client) : Prop := exists page poison mem m a os,
  pok poison /\ 2 <= page /\ sys_ok [] m (16 * page) /\ alloc page poison mem m = Ret a /\ aops_ok os (start a) /\ crun os (start a) = Ret c.
Lemma reach_inv : forall c, reachable c -> exists L, cinv c L.
Proof.
  intros c (page & poison & mem & m & a & os & H1 & H2 & H3 & H4 & H5 & H6).
  destruct (run_inv os _ _ (start_inv _ _ _ _ _ H1 H2 H3 H4) H5) as [E|(c' & L & E & I)]; rewrite H6 in E; [discriminate|]. inversion E; subst. exists L. exact I.
Qed.

(** Whatever a client does, its allocations are aligned, inside of frames, disjoint and keep
    their contents. *)
Theorem C43_sound : forall c, reachable c -> sound c.
Proof. intros c H. destruct (reach_inv c H) as [L I]. eapply cinv_sound; exact I. Qed.
(** Allocation from the scope entered last never traps; it succeeds or the program ends. *)
Theorem C43_run : forall page poison mem m a os, pok poison -> 2 <= page -> sys_ok [] m (16 * page) -> alloc page poison mem m = Ret a -> aops_ok os (start a) ->
  crun os (start a) = Exit \/ exists c, crun os (start a) = Ret c /\ sound c.
Proof.
  intros page poison mem m a os H1 H2 H3 H4 H5. destruct (run_inv os _ _ (start_inv _ _ _ _ _ H1 H2 H3 H4) H5) as [E|(c & L & E & I)]; [auto|].
  right. exists c. split; [exact E|]. eapply cinv_sound; exact I.
Qed.

(** ** Scopes. *)
(** What runs inside of a scope: it leaves only scopes it has entered, [k] at the start and
    none at the end, and touches no allocation below [n]. *)
Fixpoint body (k n : nat) (os : list aop) : Prop :=
  match os with
  | [] => k = O
  | OEnter :: r => body (S k) n r
  | OLeave :: r => match k with O => False | S k => body k n r end
  | ORealloc i _ _ :: r | OWrite i _ _ :: r => (n <= i)%nat /\ body k n r
  | _ :: r => body k n r
  end.
(** The state inside of a body, [c0] being the one at its start. *)
Record under (c0 : client) (k n : nat) (c : client) : Prop := {
  un_scopes : exists ps, c_scopes c = ps ++ c_scopes c0 /\ length ps = k;
  un_hist : exists ph, c_hist c = ph ++ c_hist c0 /\ length ph = k;
  un_objs : exists more, c_objs c = c_objs c0 ++ more /\ forall o, In o more -> (length (c_scopes c0) <= o_depth o)%nat;
  un_n : n = length (c_objs c0);
  un_depth : forall o, In o (c_objs c0) -> (o_depth o < length (c_scopes c0))%nat
}.
Lemma upd_app : forall a b i o, (length a <= i)%nat -> upd i o (a ++ b) = a ++ upd (i - length a) o b.
Proof.
  intros a b i o H. unfold upd. rewrite firstn_app, skipn_app. rewrite firstn_all2 by exact H. rewrite (skipn_all2 a) by lia. rewrite <- app_assoc. cbn [app]. replace (S i - length a)%nat with (S (i - length a)) by lia. reflexivity.
Qed.
Lemma in_upd : forall l i o x, In x (upd i o l) -> x = o \/ In x l.
Proof.
  intros l i o x H. unfold upd in H. apply in_app_or in H. destruct H as [H|[H|H]]; auto; right.
  - rewrite <- (firstn_skipn i l). apply in_or_app. auto.
  - rewrite <- (firstn_skipn (S i) l). apply in_or_app. auto.
Qed.
Lemma filter_all : forall A (f : A -> bool) l, (forall x, In x l -> f x = true) -> filter f l = l.
Proof. intros A f. induction l as [|x l IH]; intros H; cbn [filter]; [reflexivity|]. rewrite (H x (or_introl eq_refl)). f_equal. apply IH. intros y Hy. apply H. right. exact Hy. Qed.

Lemma body_under : forall os c0 k n c c', under c0 k n c -> c_scopes c0 <> [] -> body k n os -> crun os c = Ret c' -> under c0 0 n c'.
Proof.
  induction os as [|o r IH]; intros c0 k n c c' U NS B R; cbn [body crun] in *.
  { subst k. inversion R; subst. exact U. }
  destruct U as [(ps & S1 & S2) (ph & H1 & H2) (more & M1 & M2) EN DP].
  assert (NE : c_scopes c <> []) by (rewrite S1; destruct ps; [exact NS|discriminate]).
  destruct (cstep o c) as [| |c1] eqn:E; try discriminate.
  destruct o as [| |m y|p m y|i m y|i off d]; cbn [cstep] in E.
  - eapply (IH c0 (S k) n); [|exact NS|exact B|exact R]. destruct (enter (c_a c)) as [[s a]|]; [|discriminate]. inversion E; subst c1. constructor; cbn [c_a c_scopes c_objs c_hist]; auto.
    + exists (s :: ps). rewrite S1. cbn [length]. auto.
    + exists (a_frames (c_a c) :: ph). rewrite H1. cbn [length]. auto.
    + exists more. auto.
  - destruct k as [|k]; [tauto|]. eapply (IH c0 k n); [|exact NS|exact B|exact R]. destruct ps as [|s ps]; [discriminate|]. destruct ph as [|h ph]; [discriminate|]. cbn [app length] in *. rewrite S1 in E. inversion E; subst c1. constructor; cbn [c_a c_scopes c_objs c_hist]; auto.
    + exists ps. split; [reflexivity|lia].
    + exists ph. rewrite H1. cbn [tl]. split; [reflexivity|lia].
    + exists (filter (fun o => (o_depth o <=? length (ps ++ c_scopes c0))%nat) more). rewrite M1, filter_app. split.
      * f_equal. apply filter_all. intros x Hx. apply Nat.leb_le. rewrite app_length. specialize (DP x Hx). lia.
      * intros x Hx. apply filter_In in Hx. apply M2. tauto.
  - destruct (c_scopes c) as [|s ss] eqn:Es; [congruence|]. destruct (malloc s m y (c_a c)) as [| |[q a]]; try discriminate. inversion E; subst c1. eapply (IH c0 k n); [|exact NS|exact B|exact R]. constructor; cbn [c_a c_scopes c_objs c_hist]; eauto.
    exists (more ++ [mkobj q m (readn (a_mem a) q (N.to_nat m)) (length (s :: ss))]). rewrite M1, <- app_assoc. split; [reflexivity|]. intros x Hx. apply in_app_or in Hx. destruct Hx as [Hx|[<-|[]]]; [auto|]. cbn [o_depth]. rewrite S1, app_length. lia.
  - destruct (c_scopes c) as [|s ss] eqn:Es; [congruence|]. destruct (calloc s p m y (c_a c)) as [| |[q a]]; try discriminate. inversion E; subst c1. eapply (IH c0 k n); [|exact NS|exact B|exact R]. constructor; cbn [c_a c_scopes c_objs c_hist]; eauto.
    exists (more ++ [mkobj q (p * m) (repeat NUL (N.to_nat (p * m))) (length (s :: ss))]). rewrite M1, <- app_assoc. split; [reflexivity|]. intros x Hx. apply in_app_or in Hx. destruct Hx as [Hx|[<-|[]]]; [auto|]. cbn [o_depth]. rewrite S1, app_length. lia.
  - destruct B as [Bi B]. destruct (c_scopes c) as [|s ss] eqn:Es; [congruence|]. destruct (nth_error (c_objs c) i) as [ob|] eqn:Eo.
    + destruct (realloc s (o_addr ob) (o_size ob) m y (c_a c)) as [| |[[q|] a]]; try discriminate. inversion E; subst c1. eapply (IH c0 k n); [|exact NS|exact B|exact R]. constructor; cbn [c_a c_scopes c_objs c_hist]; eauto.
      rewrite M1. rewrite upd_app by lia. eexists. split; [reflexivity|]. intros x Hx. apply in_upd in Hx. destruct Hx as [->|Hx]; [|auto]. cbn [o_depth]. apply (f_equal (@length _)) in S1. rewrite app_length in S1. cbn [length] in S1. lia.
    + inversion E; subst c1. eapply (IH c0 k n); [|exact NS|exact B|exact R]. constructor; eauto. rewrite Es. eauto.
  - destruct B as [Bi B]. destruct (nth_error (c_objs c) i) as [ob|] eqn:Eo.
    + destruct (Nat.leb (off + length d) (length (o_data ob))).
      * inversion E; subst c1. eapply (IH c0 k n); [|exact NS|exact B|exact R]. constructor; cbn [c_a c_scopes c_objs c_hist]; eauto.
        rewrite M1. rewrite upd_app by lia. eexists. split; [reflexivity|]. intros x Hx. apply in_upd in Hx. destruct Hx as [->|Hx]; [|auto]. cbn [o_depth]. apply M2.
        rewrite M1 in Eo. rewrite nth_error_app2 in Eo by lia. eapply nth_error_In. exact Eo.
      * inversion E; subst c1. eapply (IH c0 k n); [|exact NS|exact B|exact R]. constructor; eauto.
    + inversion E; subst c1. eapply (IH c0 k n); [|exact NS|exact B|exact R]. constructor; eauto.
Qed.

Lemma run_app : forall a b c, crun (a ++ b) c = match crun a c with Ret c => crun b c | x => x end.
Proof. induction a as [|o a IH]; intros b c; cbn [app crun]; [reflexivity|]. destruct (cstep o c); auto. Qed.
Lemma ok_app : forall a b c, aops_ok (a ++ b) c <-> aops_ok a c /\ match crun a c with Ret c => aops_ok b c | _ => True end.
Proof. induction a as [|o a IH]; intros b c; cbn [app aops_ok crun]; [tauto|]. destruct (cstep o c); [tauto|tauto|]. rewrite IH. tauto. Qed.

(** Leaving a scope frees exactly what was allocated since entering it: frames are the same
    frames filled to where they were, and the allocations are those there were, with the
    contents they had. *)
Theorem C43_leave : forall c os c', reachable c -> body 0 (length (c_objs c)) os -> aops_ok (OEnter :: os ++ [OLeave]) c -> crun (OEnter :: os ++ [OLeave]) c = Ret c' ->
  a_frames (c_a c') = a_frames (c_a c) /\ a_refs (c_a c') = a_refs (c_a c) /\ c_scopes c' = c_scopes c /\ c_objs c' = c_objs c /\
  forall o, In o (c_objs c) -> readn (a_mem (c_a c')) (o_addr o) (N.to_nat (o_size o)) = readn (a_mem (c_a c)) (o_addr o) (N.to_nat (o_size o)).
Proof.
  intros c os c' RE B OK R. destruct (reach_inv c RE) as [L I]. cbn [crun aops_ok] in *.
  destruct (step_inv OEnter c L I Logic.I) as [E|(c1 & L1 & E & I1 & _)]; rewrite E in *; [discriminate|]. destruct OK as [_ OK].
  apply ok_app in OK. destruct OK as [OK1 OK2]. rewrite run_app in R. destruct (crun os c1) as [| |c2] eqn:E2; try discriminate.
  destruct (run_inv os c1 L1 I1 OK1) as [Q|(c2' & L2 & Q & I2)]; rewrite E2 in Q; [discriminate|]. inversion Q; subst c2'. clear Q.
  cbn [cstep] in E. destruct (enter (c_a c)) as [[s a]|] eqn:EE; [|discriminate]. inversion E; subst c1. clear E.
  assert (DP : forall o, In o (c_objs c) -> (o_depth o <= length (c_scopes c))%nat).
  { intros o Ho. rewrite (ci_objs _ _ I) in Ho. apply in_map_iff in Ho. destruct Ho as (x & <- & Hx). apply (ci_depth _ _ I). exact Hx. }
  assert (U : under (mkclient a (s :: c_scopes c) (c_objs c) (a_frames (c_a c) :: c_hist c)) 0 (length (c_objs c)) c2).
  { eapply body_under; [|discriminate|exact B|exact E2]. constructor; cbn [c_a c_scopes c_objs c_hist length]; auto.
    - exists []. auto.
    - exists []. auto.
    - exists []. rewrite app_nil_r. split; [reflexivity|intros o []].
    - intros o Ho. specialize (DP o Ho). lia. }
  destruct U as [(ps & S1 & S2) (ph & H1 & H2) (more & M1 & M2) _ _]. cbn [c_a c_scopes c_objs c_hist length] in *. destruct ps; [|discriminate]. destruct ph; [|discriminate]. cbn [app] in *.
  destruct (step_inv OLeave c2 L2 I2 Logic.I) as [E|(c3 & L3 & E & I3 & F3)]; cbn [crun] in R; rewrite E in R; [discriminate|]. inversion R; subst c3. clear R.
  specialize (F3 eq_refl). rewrite S1, H1 in F3. specialize (F3 ltac:(discriminate)).
  cbn [cstep] in E. rewrite S1 in E. inversion E; subst c'. cbn [c_a c_scopes c_objs c_hist] in *.
  assert (OB : filter (fun o => (o_depth o <=? length (c_scopes c))%nat) (c_objs c2) = c_objs c).
  { rewrite M1, filter_app. rewrite filter_all by (intros x Hx; apply Nat.leb_le; auto).
    assert (Z : filter (fun o => (o_depth o <=? length (c_scopes c))%nat) more = []).
    { clear - M2. induction more as [|x more IH]; [reflexivity|]. cbn [filter]. destruct (Nat.leb_spec (o_depth x) (length (c_scopes c))) as [Q|Q]; [pose proof (M2 x (or_introl eq_refl)); lia|]. apply IH. intros o Ho. apply M2. right. exact Ho. }
    rewrite Z. apply app_nil_r. }
  split; [congruence|]. split; [|split; [reflexivity|split; [exact OB|]]].
  - pose proof (ci_refs _ _ I3) as R3. cbn [c_a c_scopes] in R3. rewrite R3. symmetry. apply (ci_refs _ _ I).
  - intros o Ho. rewrite (so_data _ (cinv_sound _ _ I) o Ho). apply (so_data _ (cinv_sound _ _ I3)). cbn [c_objs]. rewrite OB. exact Ho.
Qed.

(** Reallocation keeps the old contents, as much as fits, and every other allocation. *)
Theorem C43_realloc : forall c i n m c' o, reachable c -> c_scopes c <> [] -> msys_ok (c_a c) n m -> nth_error (c_objs c) i = Some o -> cstep (ORealloc i n m) c = Ret c' ->
  exists o', nth_error (c_objs c') i = Some o' /\ o_size o' = n /\ length (c_objs c') = length (c_objs c) /\
  (forall k, (k < N.to_nat (o_size o))%nat -> (k < N.to_nat n)%nat -> a_mem (c_a c') (o_addr o' + N.of_nat k) = a_mem (c_a c) (o_addr o + N.of_nat k)) /\
  (forall j p, j <> i -> nth_error (c_objs c) j = Some p -> nth_error (c_objs c') j = Some p /\
    readn (a_mem (c_a c')) (o_addr p) (N.to_nat (o_size p)) = readn (a_mem (c_a c)) (o_addr p) (N.to_nat (o_size p))) /\
  (n <= o_size o -> o_addr o' = o_addr o).
Proof.
  intros c i n m c' o RE NS MS Ho E. destruct (reach_inv c RE) as [L I].
  destruct (step_inv (ORealloc i n m) c L I MS) as [Q|(c2 & L2 & Q & I2 & _)]; rewrite E in Q; [discriminate|]. inversion Q; subst c2. clear Q.
  cbn [cstep] in E. rewrite Ho in E. destruct (c_scopes c) as [|s ss] eqn:Es; [congruence|].
  destruct (realloc s (o_addr o) (o_size o) n m (c_a c)) as [| |[[p|] a]] eqn:ER; try discriminate. inversion E; subst c'. clear E.
  assert (UP : forall ob, nth_error (upd i ob (c_objs c)) i = Some ob /\ length (upd i ob (c_objs c)) = length (c_objs c) /\ forall j, j <> i -> nth_error (upd i ob (c_objs c)) j = nth_error (c_objs c) j).
  { intros ob. destruct (nth_error_split _ _ Ho) as (A & B & EA & LA). rewrite EA, <- LA, upd_split. split; [|split].
    - rewrite nth_error_app2, Nat.sub_diag by lia. reflexivity.
    - rewrite !app_length. reflexivity.
    - intros j Hj. destruct (Nat.lt_ge_cases j (length A)) as [Z|Z]; [rewrite !nth_error_app1 by lia; reflexivity|]. rewrite !nth_error_app2 by lia. destruct (j - length A)%nat as [|q] eqn:Eq; [lia|]. reflexivity. }
  set (o' := mkobj p n (redata (o_data o) n (readn (a_mem a) p (N.to_nat n))) (S (length ss))) in *. destruct (UP o') as (U1 & U2 & U3). exists o'. cbn [c_objs c_a]. split; [exact U1|]. split; [reflexivity|]. split; [exact U2|]. 
  assert (LD : length (o_data o) = N.to_nat (o_size o)) by (rewrite <- (so_data _ (cinv_sound _ _ I) o (nth_error_In _ _ Ho)); apply readn_length).
  split; [|split].
  - intros k K1 K2. pose proof (so_data _ (cinv_sound _ _ I) o (nth_error_In _ _ Ho)) as D1.
    assert (D2 : readn (a_mem a) p (N.to_nat n) = redata (o_data o) n (readn (a_mem a) p (N.to_nat n))) by exact (so_data _ (cinv_sound _ _ I2) o' (nth_error_In _ _ U1)).
    cbn [o_addr o']. transitivity (nth k (o_data o) NUL).
    + rewrite <- (nth_readn (a_mem a) p (N.to_nat n) k NUL K2). rewrite D2. unfold redata.
      rewrite <- (app_nth1 (firstn (N.to_nat n) (o_data o ++ skipn (length (o_data o)) (readn (a_mem a) p (N.to_nat n)))) (skipn (N.to_nat n) (o_data o ++ skipn (length (o_data o)) (readn (a_mem a) p (N.to_nat n))))).
      * rewrite firstn_skipn. apply app_nth1. lia.
      * rewrite firstn_length, app_length. lia.
    + rewrite <- D1. apply nth_readn. exact K1.
  - intros j q Hj Hq. rewrite U3 by exact Hj. split; [exact Hq|]. rewrite (so_data _ (cinv_sound _ _ I) q (nth_error_In _ _ Hq)). rewrite <- U3 in Hq by exact Hj. exact (so_data _ (cinv_sound _ _ I2) q (nth_error_In _ _ Hq)).
  - intros LE. cbn [o_addr o']. unfold realloc in ER. destruct (negb (N.land (o_addr o) 7 =? 0)); [discriminate|]. unfold realloc_fast in ER. destruct (N.leb_spec n (o_size o)); [|lia]. inversion ER. reflexivity.
Qed.

(** Memory from arena_calloc is zero. *)
Theorem C43_calloc : forall c k n m c', reachable c -> c_scopes c <> [] -> msys_ok (c_a c) (k * n) m -> cstep (OCalloc k n m) c = Ret c' ->
  exists o, c_objs c' = c_objs c ++ [o] /\ o_size o = k * n /\ forall x, o_addr o <= x < o_addr o + k * n -> a_mem (c_a c') x = NUL.
Proof.
  intros c k n m c' RE NS MS E. destruct (reach_inv c RE) as [L I].
  destruct (step_inv (OCalloc k n m) c L I MS) as [Q|(c2 & L2 & Q & I2 & _)]; rewrite E in Q; [discriminate|]. inversion Q; subst c2. clear Q.
  cbn [cstep] in E. destruct (c_scopes c) as [|s ss] eqn:Es; [congruence|]. destruct (calloc s k n m (c_a c)) as [| |[p a]]; try discriminate. inversion E; subst c'. clear E. cbn [c_objs c_a] in *.
  eexists. split; [reflexivity|]. split; [reflexivity|]. cbn [o_addr]. intros x Hx.
  assert (D : readn (a_mem a) p (N.to_nat (k * n)) = repeat NUL (N.to_nat (k * n))).
  { exact (so_data _ (cinv_sound _ _ I2) (mkobj p (k * n) (repeat NUL (N.to_nat (k * n))) (length (s :: ss))) (in_or_app _ [_] _ (or_intror (in_eq _ _)))). }
  replace x with (p + N.of_nat (N.to_nat (x - p))) by lia. rewrite <- (nth_readn (a_mem a) p (N.to_nat (k * n)) _ NUL) by lia. rewrite D. apply nth_repeat.
Qed.

(** Allocating from a scope that is not the last one entered is caught. *)
Lemma marks_id : forall P scopes fs hist L s, marks P fs scopes hist L -> In s scopes -> (s_id s <= S (length scopes))%nat /\ (1 < s_id s)%nat.
Proof.
  intros P. induction scopes as [|t ss IH]; intros fs hist L s M H; [destruct H|]. cbn [marks] in M. destruct hist as [|F hs]; [tauto|]. destruct M as (_ & M1 & _ & M2). cbn [length]. destruct H as [<-|H]; [lia|].
  specialize (IH _ _ _ _ M2 H). lia.
Qed.
Theorem C43_trap : forall c s ss t n m, reachable c -> c_scopes c = s :: ss -> In t ss -> malloc t n m (c_a c) = Trap.
Proof.
  intros c s ss t n m RE Es Ht. destruct (reach_inv c RE) as [L I]. pose proof (ci_marks _ _ I) as M. pose proof (ci_refs _ _ I) as R. rewrite Es in M, R. cbn [marks length] in M, R. destruct (c_hist c) as [|F hs]; [tauto|]. destruct M as (_ & _ & _ & M).
  destruct (marks_id _ _ _ _ _ _ M Ht) as [D _]. unfold malloc, validate. rewrite R. destruct (Nat.eqb_spec (s_id t) (S (S (length ss)))) as [Q|Q]; [lia|]. reflexivity.
Qed.

(** ** Freeing the arena. *)
Fixpoint leave_all (ss : list scope) (a : arena) : arena := match ss with [] => a | s :: r => leave_all r (leave s a) end.
Lemma pop_none : forall fs, pop_frames None fs = [].
Proof. induction fs as [|f r IH]; cbn [pop_frames]; auto. Qed.
Lemma leave_refs : forall ss a, a_refs a = length ss -> ss <> [] -> a_frames (leave_all ss a) = [] /\ a_refs (leave_all ss a) = O.
Proof.
  induction ss as [|s r IH]; intros a R N; [congruence|]. cbn [leave_all length] in *. destruct r as [|t r].
  - cbn [leave_all]. unfold leave. rewrite R. cbn [Nat.eqb length a_frames a_refs pred]. rewrite pop_none. auto.
  - apply IH; [|discriminate]. unfold leave. cbn [a_refs]. rewrite R. reflexivity.
Qed.
(** Freeing an arena while scopes are alive frees nothing and lets nothing be allocated; once
    every scope has been left, no frame remains.  Without scopes it frees all at once. *)
Theorem C43_free : forall c, reachable c ->
  (c_scopes c = [] -> a_frames (free (c_a c)) = [] /\ a_refs (free (c_a c)) = O) /\
  (c_scopes c <> [] -> a_frames (free (c_a c)) = a_frames (c_a c) /\ a_mem (free (c_a c)) = a_mem (c_a c) /\
     (a_frames (leave_all (c_scopes c) (free (c_a c))) = [] /\ a_refs (leave_all (c_scopes c) (free (c_a c))) = O) /\
     forall s ss n m, c_scopes c = s :: ss -> malloc s n m (free (c_a c)) = Trap).
Proof.
  intros c RE. destruct (reach_inv c RE) as [L I]. pose proof (ci_refs _ _ I) as R. split; intros Es.
  - unfold free. rewrite R, Es. cbn [length Nat.ltb Nat.leb]. unfold leave. rewrite R, Es. cbn [length Nat.eqb a_frames a_refs pred]. rewrite pop_none. auto.
  - assert (LT : Nat.ltb 1 (a_refs (c_a c)) = true) by (apply Nat.ltb_lt; rewrite R; destruct (c_scopes c); [congruence|cbn [length]; lia]).
    unfold free. rewrite LT. cbn [a_frames a_mem]. split; [reflexivity|]. split; [reflexivity|]. split.
    + apply leave_refs; [|exact Es]. cbn [a_refs]. rewrite R. reflexivity.
    + intros s ss n m E. pose proof (ci_marks _ _ I) as M. rewrite E in M. cbn [marks] in M. destruct (c_hist c); [tauto|]. destruct M as (_ & M & _). unfold malloc, validate. cbn [a_refs]. rewrite R, M, E. cbn [length pred].
      destruct (Nat.eqb_spec (S (S (length ss))) (S (length ss))); [lia|]. reflexivity.
Qed.

(** ** A client that enters two scopes, fills a frame and gets another one. *)
Definition mem0 : N -> byte := fun _ => "x"%char.
Definition a0 : arena := match alloc 4 0 mem0 (Some (4096, mem0)) with Ret a => a | _ => mkarena [] 0 0 0 mem0 end.
Definition os0 : list aop := [OEnter; OMalloc 5 None; OWrite 0 1 (s2b "abc"); OEnter; OMalloc 7 None; OWrite 1 0 (s2b "hello"); ORealloc 1 16 None; OCalloc 2 8 (Some (8192, mem0)); ORealloc 1 32 (Some (8448, mem0))].
Definition c0 : client := match crun os0 (start a0) with Ret c => c | _ => start a0 end.
Example C43_ex : List.map (fun o => (o_addr o, o_size o, firstn 6 (o_data o), o_depth o)) (c_objs c0) = [(4128, 5, s2b "xabcx", 1%nat); (8480, 32, s2b "hellox", 2%nat); (8224, 16, repeat NUL 6, 2%nat)].
Proof. vm_compute. reflexivity. Qed.
(** Checking hypotheses by computation. *)
Definition sys_okb (fs : list frame) (m : sys) (size : N) : bool :=
  match m with None => true | Some (p, _) => (p mod 8 =? 0) && (p + size <=? HALF) && forallb (fun f => (p + size <=? f_ptr f) || (f_ptr f + f_size f <=? p)) fs end.
Definition msys_okb (a : arena) (n : N) (m : sys) : bool := match fit 64 (a_fsize a) (a_poison a + (n + FRAME)) with Some s => sys_okb (a_frames a) m s | None => true end.
Definition aop_okb (o : aop) (c : client) : bool := match o with OMalloc n m | ORealloc _ n m => msys_okb (c_a c) n m | OCalloc k n m => msys_okb (c_a c) (k * n) m | _ => true end.
Fixpoint aops_okb (os : list aop) (c : client) : bool := match os with [] => true | o :: r => aop_okb o c && match cstep o c with Ret c => aops_okb r c | _ => true end end.
Lemma sys_okb_ok : forall fs m size, sys_okb fs m size = true -> sys_ok fs m size.
Proof.
  intros fs m size H p junk ->. cbn [sys_okb] in H. rewrite !andb_true_iff in H. destruct H as [[H1 H2] H3]. apply N.eqb_eq in H1. apply N.leb_le in H2. split; [|split; [exact H2|]].
  - exists (p / 8). pose proof (N.div_mod p 8). lia.
  - intros f Hf. rewrite forallb_forall in H3. specialize (H3 f Hf). apply orb_true_iff in H3. rewrite !N.leb_le in H3. exact H3.
Qed.
Lemma msys_okb_ok : forall a n m, msys_okb a n m = true -> msys_ok a n m.
Proof. intros a n m H s E. unfold msys_okb in H. rewrite E in H. apply sys_okb_ok. exact H. Qed.
Lemma aops_okb_ok : forall os c, aops_okb os c = true -> aops_ok os c.
Proof.
  induction os as [|o r IH]; intros c H; cbn [aops_okb aops_ok] in *; [exact I|]. apply andb_true_iff in H. destruct H as [H1 H2]. split.
  - destruct o; cbn [aop_okb aop_ok] in *; try exact I; apply msys_okb_ok; exact H1.
  - destruct (cstep o c); auto.
Qed.
Example C43_reachable : reachable c0 /\ c_scopes c0 <> [] /\ c_objs c0 <> [].
Proof.
  split; [|split].
  - exists 4, 0, mem0, (Some (4096, mem0)), a0, os0. split; [left; reflexivity|]. split; [lia|]. split; [apply sys_okb_ok; vm_compute; reflexivity|]. split; [reflexivity|].
    split; [apply aops_okb_ok; vm_compute; reflexivity|].
    assert (T : match crun os0 (start a0) with Ret _ => true | _ => false end = true) by (vm_compute; reflexivity).
    unfold c0. destruct (crun os0 (start a0)); [discriminate|discriminate|reflexivity].
  - intros E. apply (f_equal (@length _)) in E. vm_compute in E. discriminate.
  - intros E. apply (f_equal (@length _)) in E. vm_compute in E. discriminate.
Qed.
(** and what runs inside of the second scope meets the hypotheses of [C43_leave]. *)
Example C43_body : body 0 1 [OMalloc 7 None; OWrite 1 0 (s2b "hello"); OEnter; OLeave; ORealloc 1 16 None].
Proof. cbn [body]. repeat split; lia. Qed.

Print Assumptions C43_sound.
Print Assumptions C43_run.
Print Assumptions C43_leave.
Print Assumptions C43_realloc.
Print Assumptions C43_calloc.
Print Assumptions C43_trap.
Print Assumptions C43_free.
