(** Proofs about the grouping of local variables: collecting and putting in place together. *)
From Coq Require Import Permutation Sorted.
From Verif Require Import Base TokenModel UtilModel StreamModel StreamProofs TokListModel TokListProofs StaticModel ForwardProofs SdeclModel SdeclProofs SdeclLeave SdeclSpec SdeclCollect.
From Verif Require IncludeProps ForwardProps.

Ltac count := rewrite (Permutation_count_occ Nat.eq_dec) in *; intros; repeat match goal with H : forall _ : nat, _ = _ |- context [count_occ _ _ ?a] => specialize (H a) end;
  repeat rewrite count_occ_app in *; cbn [count_occ] in *; repeat match goal with |- context [if ?b then _ else _] => destruct b end; lia.

(** ** The variables claimed *)
Section Claims.
Variable x : lex.
Lemma claims_vars : forall vs pend, map fst (claims x pend vs) = filter (moves x) vs.
Proof.
  induction vs as [|v vs IH]; intros pend; [reflexivity|]. cbn [filter]. destruct vs as [|w vs].
  - cbn. destruct (moves x v); reflexivity.
  - remember (w :: vs) as ws. replace (claims x pend (v :: ws)) with (if moves x v then match pend with None => (v, Some (w_delim v)) :: claims x None ws | Some c => (v, Some c) :: claims x (Some (w_delim v)) ws end else claims x (if clear x (w_delim v) then Some (w_delim v) else None) ws) by (subst; reflexivity).
    destruct (moves x v); [destruct pend; cbn; rewrite IH; reflexivity|apply IH].
Qed.
Lemma claims_cons : forall v ws pend, ws <> [] ->
  claims x pend (v :: ws) = if moves x v then match pend with None => (v, Some (w_delim v)) :: claims x None ws | Some c => (v, Some c) :: claims x (Some (w_delim v)) ws end else claims x (if clear x (w_delim v) then Some (w_delim v) else None) ws.
Proof. intros v [|w ws] pend N; [contradiction|reflexivity]. Qed.
Lemma moves_clear : forall v, moves x v = true -> clear x (w_delim v) = true.
Proof. intros v M. unfold moves in M. apply andb_true_iff in M. apply M. Qed.
Lemma claims_delim : forall vs pend c d, In c (claims x pend vs) -> snd c = Some d -> pend = Some d \/ In d (map w_delim (removelast vs)) /\ clear x d = true.
Proof.
  induction vs as [|v vs IH]; intros pend c d I Q; [destruct I|]. destruct vs as [|w vs].
  - cbn in I. destruct (moves x v); [|destruct I]. destruct I as [<-|[]]. left. exact Q.
  - rewrite claims_cons in I by discriminate. change (removelast (v :: w :: vs)) with (v :: removelast (w :: vs)). cbn [map].
    destruct (moves x v) eqn:M; [pose proof (moves_clear _ M) as C; destruct pend as [e|]|].
    + destruct I as [<-|I]; [left; exact Q|]. right. destruct (IH _ _ _ I Q) as [K|[K1 K2]]; [injection K as <-; split; [left; reflexivity|exact C]|split; [right; exact K1|exact K2]].
    + right. destruct I as [<-|I]; [injection Q as <-; split; [left; reflexivity|exact C]|]. destruct (IH _ _ _ I Q) as [K|[K1 K2]]; [discriminate K|split; [right; exact K1|exact K2]].
    + right. destruct (IH _ _ _ I Q) as [K|[K1 K2]]; [|split; [right; exact K1|exact K2]]. destruct (clear x (w_delim v)) eqn:C; [injection K as <-; split; [left; reflexivity|exact C]|discriminate K].
Qed.
Definition opt (o : option id) : list id := match o with Some d => [d] | None => [] end.
Lemma claims_part : forall vs pend, exists r, Permutation (flat_map ceat (claims x pend vs) ++ r) (opt pend ++ flat_map vtoks vs).
Proof.
  induction vs as [|v vs IH]; intros pend; [exists (opt pend); cbn; rewrite app_nil_r; reflexivity|]. destruct vs as [|w vs].
  - cbn [claims]. destruct (moves x v).
    + exists [w_delim v]. cbn [flat_map]. unfold ceat, vtoks. cbn [fst snd]. fold (opt pend). count.
    + exists (opt pend ++ flat_map vtoks [v]). cbn. reflexivity.
  - rewrite claims_cons by discriminate. remember (w :: vs) as ws. cbn [flat_map]. destruct (moves x v); [destruct pend as [c|]|].
    + destruct (IH (Some (w_delim v))) as (r & P). exists r. cbn [flat_map opt] in *. unfold ceat at 1, vtoks at 1. cbn [fst snd]. count.
    + destruct (IH None) as (r & P). exists r. cbn [flat_map opt] in *. unfold ceat at 1, vtoks at 1. cbn [fst snd]. count.
    + destruct (clear x (w_delim v)).
      * destruct (IH (Some (w_delim v))) as (r & P). exists (opt pend ++ w_toks v ++ r). cbn [opt] in P. unfold vtoks at 1. count.
      * destruct (IH None) as (r & P). exists (opt pend ++ vtoks v ++ r). cbn [opt] in P. count.
Qed.
Definition vpart (p : piece) : list id := match p with Other _ _ => [] | Declares _ _ vs => flat_map vtoks vs end.
Definition tpart (p : piece) : list id := match p with Other l _ => l | Declares ty _ _ => ty end.
Lemma ptoks_parts : forall p, ptoks p = tpart p ++ vpart p.
Proof. intros [l cs|ty n vs]; [cbn; rewrite app_nil_r|]; reflexivity. Qed.
Lemma parts : forall ps, Permutation (flat_map ptoks ps) (flat_map tpart ps ++ flat_map vpart ps).
Proof. induction ps as [|p ps IH]; [reflexivity|]. cbn [flat_map]. rewrite ptoks_parts. count. Qed.
Lemma eaten_part : forall ps, exists r, Permutation (eaten x ps ++ r) (flat_map vpart ps).
Proof.
  induction ps as [|p ps (r & P)]; [exists []; reflexivity|]. unfold eaten, moved in *. cbn [flat_map]. rewrite flat_map_app. destruct p as [l cs|ty n vs]; cbn [pclaims vpart].
  - exists r. cbn. exact P.
  - destruct (valid x ty n vs); [|exists (flat_map vtoks vs ++ r); cbn; count].
    destruct (claims_part vs None) as (r' & P'). exists (r' ++ r). assert (Q : flat_map (fun c : bytes * (var * option id) => ceat (snd c)) (map (pair (key x ty)) (claims x None vs)) = flat_map ceat (claims x None vs)) by (rewrite flat_map_concat_map, map_map, <- flat_map_concat_map; reflexivity).
    rewrite Q. cbn [opt app] in P'. count.
Qed.
Lemma moved_inv : forall ps c, In c (moved x ps) -> exists ty n vs, In (Declares ty n vs) ps /\ valid x ty n vs = true /\ fst c = key x ty /\ In (snd c) (claims x None vs).
Proof.
  intros ps c I. unfold moved in I. apply in_flat_map in I. destruct I as (p & Ip & Ic). destruct p as [l cs|ty n vs]; [destruct Ic|]. cbn in Ic. destruct (valid x ty n vs) eqn:V; [|destruct Ic].
  apply in_map_iff in Ic. destruct Ic as (d & <- & Id). exists ty, n, vs. auto.
Qed.
Lemma claims_in : forall vs pend c, In c (claims x pend vs) -> In (fst c) vs /\ moves x (fst c) = true.
Proof. intros vs pend c I. apply filter_In. rewrite <- (claims_vars vs pend). apply in_map. exact I. Qed.
End Claims.

(** ** Classes *)
Section Classes.
Variable x : lex.
Lemma pull : forall A (K : Type) (f : K -> bool) (X : list A) (F : K -> list A) l1 c l2, f c = true -> (forall d, In d (l1 ++ l2) -> f d = false) ->
  Permutation (flat_map (fun d => (if f d then X else []) ++ F d) (l1 ++ c :: l2)) (X ++ flat_map F (l1 ++ c :: l2)).
Proof.
  intros A K f X F l1 c l2 Hc H. rewrite !flat_map_app. cbn [flat_map]. rewrite Hc.
  assert (G : forall l, (forall d, In d l -> f d = false) -> flat_map (fun d => (if f d then X else []) ++ F d) l = flat_map F l).
  { induction l as [|d l IH]; intros Hl; [reflexivity|]. cbn [flat_map]. rewrite (Hl d (or_introl eq_refl)), IH by (intros e I; apply Hl; right; exact I). reflexivity. }
  rewrite !G by (intros d I; apply H; apply in_or_app; auto). rewrite <- app_assoc. rewrite !app_assoc. apply Permutation_app_tail. apply Permutation_app_tail. apply Permutation_app_comm.
Qed.
Lemma from_spec : forall k c, from x k c = true <-> class x c = k.
Proof. intros k c. unfold from. destruct (class_dec (class x c) k); split; intros; try discriminate; try reflexivity; try assumption. contradiction. Qed.
Lemma partition : forall M ks, NoDup ks -> (forall c, In c M -> In (class x c) ks) -> Permutation (flat_map (fun k => filter (from x k) M) ks) M.
Proof.
  induction M as [|a M IH]; intros ks N H.
  - cbn. induction ks; [reflexivity|]. inv N. cbn. apply IHks; [assumption|intros c []].
  - destruct (in_split _ _ (H a (or_introl eq_refl))) as (l1 & l2 & E).
    assert (Q : flat_map (fun k => filter (from x k) (a :: M)) ks = flat_map (fun k => (if from x k a then [a] else []) ++ filter (from x k) M) ks).
    { apply flat_map_ext. intros k. cbn [filter]. destruct (from x k a); reflexivity. }
    rewrite Q, E. rewrite (pull _ _ (fun k => from x k a) [a] (fun k => filter (from x k) M) l1 (class x a) l2).
    + cbn [app]. apply perm_skip. rewrite <- E. apply IH; [exact N|]. intros c I. apply H. right. exact I.
    + apply from_spec. reflexivity.
    + intros d I. destruct (from x d a) eqn:K; [|reflexivity]. apply from_spec in K. rewrite E in N. apply NoDup_remove_2 in N. rewrite K in N. contradiction.
Qed.
Definition full (l : list dvar) : bool := match l with [] => false | _ => true end.
Definition ms (l : list slot) : list nat := filter (fun m => full (Vs l m)) (seq 0 (length l)).
Definition slot_jobs (t : dtype) (l : list slot) : list job := flat_map (fun sl => match s_vars sl with [] => [] | _ => [(t, sl)] end) l.
Lemma Vs_snoc : forall l sl m, Vs (l ++ [sl]) m = if m =? length l then s_vars sl else Vs l m.
Proof.
  intros l sl m. unfold Vs. rewrite map_app. cbn [map]. destruct (Nat.eqb_spec m (length l)) as [->|N].
  - rewrite app_nth2; rewrite map_length; [|lia]. rewrite Nat.sub_diag. reflexivity.
  - destruct (Nat.lt_ge_cases m (length l)); [rewrite app_nth1 by (rewrite map_length; assumption); reflexivity|]. rewrite !nth_overflow; [reflexivity| |]; rewrite ?app_length, map_length; cbn; lia.
Qed.
Lemma Vs_out : forall l m, Vs l m <> [] -> m < length l.
Proof. intros l m H. destruct (Nat.lt_ge_cases m (length l)); [assumption|]. exfalso. apply H. unfold Vs. apply nth_overflow. rewrite map_length. assumption. Qed.
Lemma slot_jobs_ms : forall t l, Forall2 (fun j m => fst j = t /\ In (snd j) l /\ job_vars j = Vs l m /\ Vs l m <> []) (slot_jobs t l) (ms l).
Proof.
  intros t l. induction l as [|sl l IH] using rev_ind; [constructor|]. unfold slot_jobs, ms in *. rewrite flat_map_app, app_length. cbn [length]. rewrite seq_app, filter_app. cbn [seq filter flat_map Nat.add].
  assert (Q : filter (fun m => full (Vs (l ++ [sl]) m)) (seq 0 (length l)) = filter (fun m => full (Vs l m)) (seq 0 (length l))).
  { apply filter_ext_in. intros m I. apply in_seq in I. rewrite Vs_snoc, (proj2 (Nat.eqb_neq m (length l))) by lia. reflexivity. }
  rewrite Q. apply Forall2_app.
  - clear Q. revert IH. generalize (flat_map (fun sl0 => match s_vars sl0 with [] => [] | _ => [(t, sl0)] end) l). intros js IH.
    assert (G : forall a b, (forall m, In m b -> m < length l) -> Forall2 (fun j m => fst j = t /\ In (snd j) l /\ job_vars j = Vs l m /\ Vs l m <> []) a b -> Forall2 (fun j m => fst j = t /\ In (snd j) (l ++ [sl]) /\ job_vars j = Vs (l ++ [sl]) m /\ Vs (l ++ [sl]) m <> []) a b).
    { intros a b Hb F. induction F as [|j m a b (F1 & F2 & F3 & F4) F IHF]; [constructor|]. constructor; [|apply IHF; intros q I; apply Hb; right; exact I].
      rewrite Vs_snoc, (proj2 (Nat.eqb_neq m (length l))) by (pose proof (Hb m (or_introl eq_refl)); lia). split; [exact F1|]. split; [apply in_or_app; left; exact F2|]. split; assumption. }
    apply G; [|exact IH]. intros m I. apply filter_In in I. destruct I as [I _]. apply in_seq in I. lia.
  - rewrite Vs_snoc, Nat.eqb_refl. destruct (s_vars sl) eqn:Es; cbn [full app]; constructor; [|constructor]. rewrite Vs_snoc, Nat.eqb_refl, Es. unfold job_vars. cbn [fst snd]. split; [reflexivity|]. split; [apply in_or_app; right; left; reflexivity|]. split; [exact Es|discriminate].
Qed.
Lemma ms_nodup : forall l, NoDup (ms l).
Proof. intros l. apply NoDup_filter, seq_NoDup. Qed.
Lemma ms_in : forall l m, In m (ms l) <-> Vs l m <> [].
Proof.
  intros l m. unfold ms. rewrite filter_In, in_seq. split.
  - intros [_ F] Q. rewrite Q in F. discriminate.
  - intros N. split; [pose proof (Vs_out _ _ N); lia|]. destruct (Vs l m); [contradiction|reflexivity].
Qed.
Definition cls (types : list dtype) : list (bytes * nat) := flat_map (fun t => map (pair (t_str t)) (ms (t_slots t))) types.
Lemma cls_nodup : forall types, NoDup (map t_str types) -> NoDup (cls types).
Proof.
  induction types as [|t types IH]; intros N; [constructor|]. cbn [map] in N. inv N. cbn [cls flat_map]. apply IncludeProps.nodup_app. split; [|split].
  - apply FinFun.Injective_map_NoDup; [|apply ms_nodup]. intros a b Q. congruence.
  - apply IH. assumption.
  - intros [k m] I J. apply in_map_iff in I. destruct I as (m1 & Q & _). injection Q as <- <-. apply in_flat_map in J. destruct J as (u & Iu & J). apply in_map_iff in J. destruct J as (m2 & Q & _).
    match goal with K : ~ In _ _ |- _ => apply K end. injection Q as Q _. rewrite <- Q. apply in_map. exact Iu.
Qed.
Lemma cls_in : forall types k m, Vt types k m <> [] -> In (k, m) (cls types).
Proof.
  induction types as [|t types IH]; intros k m H; [contradiction H; reflexivity|]. cbn [cls flat_map]. apply in_or_app. unfold Vt in H. cbn [flat_map] in H. destruct (list_eq_dec ascii_dec (t_str t) k) as [<-|Q].
  - destruct (Vs (t_slots t) m) eqn:Ev; [right; apply IH; exact H|]. left. apply in_map. apply ms_in. rewrite Ev. discriminate.
  - right. apply IH. exact H.
Qed.
Lemma jobs_cls : forall types, NoDup (map t_str types) ->
  Forall2 (fun j c => In (fst j) types /\ t_str (fst j) = fst c /\ In (snd j) (t_slots (fst j)) /\ job_vars j = Vt types (fst c) (snd c) /\ job_vars j <> []) (jobs types) (cls types).
Proof.
  intros types N.
  assert (G : forall ts, incl ts types -> Forall2 (fun j c => In (fst j) types /\ t_str (fst j) = fst c /\ In (snd j) (t_slots (fst j)) /\ job_vars j = Vt types (fst c) (snd c) /\ job_vars j <> []) (jobs ts) (cls ts)).
  { induction ts as [|t ts IH]; intros Hi; [constructor|]. cbn [jobs cls flat_map]. apply Forall2_app; [|apply IH; intros u I; apply Hi; right; exact I].
    pose proof (slot_jobs_ms t (t_slots t)) as F. fold (slot_jobs t (t_slots t)). assert (It : In t types) by (apply Hi; left; reflexivity).
    induction F as [|j m a b (F1 & F2 & F3 & F4) F IHF]; [constructor|]. cbn [map]. constructor; [|exact IHF]. cbn [fst snd]. rewrite F1 in *. split; [exact It|]. split; [reflexivity|]. split; [exact F2|].
    destruct (in_split _ _ It) as (T1 & T2 & ET). rewrite ET in *. rewrite Vt_one by exact N. destruct (list_eq_dec ascii_dec (t_str t) (t_str t)) as [_|K]; [|contradiction]. split; [exact F3|rewrite F3; exact F4]. }
  apply G. intros t I. exact I.
Qed.
End Classes.

Lemma in_flat_split : forall A B (f : A -> list B) l a, In a l -> exists l1 l2, flat_map f l = l1 ++ f a ++ l2.
Proof. intros A B f l a I. destruct (in_split _ _ I) as (r1 & r2 & ->). exists (flat_map f r1), (flat_map f r2). rewrite flat_map_app. reflexivity. Qed.
Lemma nodup_flat_inj : forall A B (f : A -> list B) l a b t, NoDup (flat_map f l) -> In a l -> In b l -> In t (f a) -> In t (f b) -> a = b.
Proof.
  intros A B f l. induction l as [|c l IH]; intros a b t N Ia Ib Ta Tb; [destruct Ia|]. cbn [flat_map] in N. apply IncludeProps.nodup_app in N. destruct N as (_ & N2 & N3).
  assert (G : forall d, In d l -> In t (f d) -> In t (f c) -> False). { intros d Id Td Tc. apply (N3 t Tc). apply in_flat_map. eauto. }
  destruct Ia as [<-|Ia], Ib as [<-|Ib]; [reflexivity| | |eauto]; exfalso; eauto.
Qed.
Lemma form_keep : forall D gs l, (forall t, In t l -> behind gs t = []) -> form D gs l = filter (fun t => negb (mem t D)) l.
Proof.
  intros D gs l H. induction l as [|t l IH]; [reflexivity|]. rewrite form_cons, IH by (intros u I; apply H; right; exact I). rewrite (H t (or_introl eq_refl)). cbn [filter app]. destruct (mem t D); reflexivity.
Qed.

Section Main.
Variable E : id -> nat.
Variable x : lex.
Hypothesis R0 : ready E x.
Variable ps : list piece.
Hypothesis EL : x_toks x = flat_map ptoks ps.
Hypothesis CA : Forall (called x) ps.
Notation L0 := (x_toks x).
Notation ND := (ready_nodup _ _ R0).

Lemma piece_seg : forall p, In p ps -> exists l1 l2, L0 = l1 ++ ptoks p ++ l2.
Proof. intros p I. rewrite EL. apply in_flat_split. exact I. Qed.
Lemma piece_in : forall p t, In p ps -> In t (ptoks p) -> In t L0.
Proof. intros p t I J. rewrite EL. apply in_flat_map. eauto. Qed.
Lemma piece_called : forall p, In p ps -> called x p.
Proof. intros p I. rewrite Forall_forall in CA. auto. Qed.
Lemma piece_eq : forall p q t, In p ps -> In q ps -> In t (ptoks p) -> In t (ptoks q) -> p = q.
Proof. intros p q t. apply nodup_flat_inj. rewrite <- EL. exact ND. Qed.
Lemma var_seg : forall ty n vs v, In (Declares ty n vs) ps -> In v vs -> exists l1 l2, L0 = l1 ++ vtoks v ++ l2.
Proof.
  intros ty n vs v I J. destruct (piece_seg _ I) as (l1 & l2 & ->). cbn [ptoks]. destruct (in_flat_split _ _ vtoks _ _ J) as (r1 & r2 & ->).
  exists (l1 ++ ty ++ r1), (r2 ++ l2). rewrite <- !app_assoc. reflexivity.
Qed.
Lemma ty_seg : forall ty n vs, In (Declares ty n vs) ps -> ty <> [] /\ exists l1 l2, L0 = l1 ++ ty ++ l2.
Proof. intros ty n vs I. split; [apply (piece_called _ I)|]. destruct (piece_seg _ I) as (l1 & l2 & ->). cbn [ptoks]. exists l1, (flat_map vtoks vs ++ l2). rewrite <- !app_assoc. reflexivity. Qed.
Lemma ty_over : forall ty n vs, In (Declares ty n vs) ps -> over x (hd 0 ty, last ty 0) = ty.
Proof. intros ty n vs I. destruct (ty_seg _ _ _ I) as (N & l1 & l2 & Q). eapply (over_list E x R0); [exact N|exact Q]. Qed.
Lemma semi_spec : forall ty n vs, In (Declares ty n vs) ps -> exists l, ptoks (Declares ty n vs) = l ++ [semi_of (Declares ty n vs)] /\ l <> [] /\ tyof x (semi_of (Declares ty n vs)) = T_SEMI.
Proof.
  intros ty n vs I. destruct (piece_called _ I) as (N & _ & _ & _ & _ & us & v & -> & Ts & _). rewrite semi_of_snoc. cbn [ptoks]. rewrite flat_map_app. cbn [flat_map]. rewrite app_nil_r. unfold vtoks at 2.
  exists (ty ++ flat_map vtoks us ++ w_toks v). rewrite <- !app_assoc. split; [reflexivity|]. split; [destruct ty; [contradiction|discriminate]|exact Ts].
Qed.
Lemma semi_in : forall ty n vs, In (Declares ty n vs) ps -> In (semi_of (Declares ty n vs)) (ptoks (Declares ty n vs)).
Proof. intros ty n vs I. destruct (semi_spec _ _ _ I) as (l & -> & _). apply in_or_app. right. left. reflexivity. Qed.
Lemma semi_for_in : forall k a, semi_for x ps k a -> In a L0 /\ tyof x a = T_SEMI.
Proof. intros k a (ty & n & vs & I & _ & _ & ->). split; [eapply piece_in; [exact I|apply semi_in; exact I]|]. destruct (semi_spec _ _ _ I) as (_ & _ & _ & H). exact H. Qed.

Lemma cb : forall t, clear x t = true <-> bare (x_heap x) t.
Proof. exact (clear_bare x). Qed.
Lemma moves_fine : forall v t, moves x v = true -> In t (w_toks v) -> clear x t = true /\ (tyof x t = T_STAR \/ tyof x t = T_IDENT).
Proof.
  intros v t M I. unfold moves in M. apply andb_true_iff in M. destruct M as [M _]. apply andb_true_iff in M. destruct M as [M _]. rewrite forallb_forall in M. specialize (M t I).
  apply andb_true_iff in M. destruct M as [M C]. split; [exact C|]. apply orb_true_iff in M. destruct M as [M|M]; apply ttype_eqb_eq in M; auto.
Qed.
Lemma removelast_snoc_in : forall (us : list var) v d, In d (map w_delim (removelast (us ++ [v]))) -> exists u, In u us /\ d = w_delim u.
Proof. intros us v d I. rewrite removelast_last in I. apply in_map_iff in I. destruct I as (u & <- & I). eauto. Qed.
Lemma eaten_fine : forall i, In i (eaten x ps) -> fine x i.
Proof.
  intros i I. assert (IL : In i L0).
  { destruct (eaten_part x ps) as (r & P). rewrite EL. eapply Permutation_in; [symmetry; apply parts|]. apply in_or_app. right. eapply Permutation_in; [exact P|]. apply in_or_app. left. exact I. }
  split; [exact IL|]. rewrite <- cb. unfold eaten in I. apply in_flat_map in I. destruct I as (c & Ic & Ie). destruct (moved_inv _ _ _ Ic) as (ty & n & vs & Ip & V & _ & Icl). destruct (claims_in _ _ _ _ Icl) as [Iv M].
  unfold ceat in Ie. apply in_app_or in Ie. destruct Ie as [Ie|Ie].
  - destruct (moves_fine _ _ M Ie) as [C [Q|Q]]; rewrite Q; repeat split; try discriminate; exact C.
  - destruct (snd (snd c)) as [d|] eqn:Ed; [|destruct Ie]. destruct Ie as [<-|[]]. destruct (claims_delim _ _ _ _ _ Icl Ed) as [K|[K C]]; [discriminate K|].
    destruct (piece_called _ Ip) as (_ & _ & _ & _ & _ & us & v & -> & _ & Fc & _). destruct (removelast_snoc_in _ _ _ K) as (u & Iu & ->). rewrite Forall_forall in Fc. rewrite (Fc u Iu). repeat split; try discriminate; exact C.
Qed.
Lemma ty_not_eaten : forall ty n vs i, In (Declares ty n vs) ps -> In i ty -> ~ In i (eaten x ps).
Proof.
  intros ty n vs i I J K. pose proof ND as N. rewrite EL in N. apply (Permutation_NoDup (parts ps)) in N. apply IncludeProps.nodup_app in N. destruct N as (_ & _ & N). apply (N i).
  - apply in_flat_map. exists (Declares ty n vs). split; [exact I|exact J].
  - destruct (eaten_part x ps) as (r & P). eapply Permutation_in; [exact P|]. apply in_or_app. left. exact K.
Qed.
Lemma eaten_nodup : NoDup (eaten x ps).
Proof.
  pose proof ND as N. rewrite EL in N. apply (Permutation_NoDup (parts ps)) in N. apply nd_r in N. destruct (eaten_part x ps) as (r & P). apply (Permutation_NoDup (Permutation_sym P)) in N. apply nd_l in N. exact N.
Qed.
Lemma valid_clear : forall ty n vs t, valid x ty n vs = true -> In t ty -> clear x t = true.
Proof.
  intros ty n vs t V I. unfold valid in V. rewrite forallb_forall in V. assert (J : In t (reported ty n vs)) by (unfold reported; apply in_or_app; left; exact I).
  specialize (V t J). apply andb_true_iff in V. destruct V as [V _]. apply andb_true_iff in V. apply V.
Qed.
Lemma W_dv : forall c, In c (moved x ps) -> W x (dv x (snd c)) = w_toks (fst (snd c)) /\ eat x (dv x (snd c)) = ceat (snd c) /\ seg x (v_range (dv x (snd c))) /\ In (v_sort (dv x (snd c))) (w_toks (fst (snd c))) /\ In (name x (fst (snd c))) L0.
Proof.
  intros c Ic. destruct (moved_inv _ _ _ Ic) as (ty & n & vs & Ip & V & _ & Icl). destruct (claims_in _ _ _ _ Icl) as [Iv M]. destruct (var_seg _ _ _ _ Ip Iv) as (l1 & l2 & Q).
  pose proof (moves_toks _ _ M) as N. assert (Q' : L0 = l1 ++ w_toks (fst (snd c)) ++ [w_delim (fst (snd c))] ++ l2) by (rewrite Q; unfold vtoks; rewrite <- app_assoc; reflexivity).
  assert (WW : W x (dv x (snd c)) = w_toks (fst (snd c))) by (unfold W, dv; cbn [v_range]; eapply (over_list E x R0); [exact N|exact Q']).
  assert (IN : In (name x (fst (snd c))) (w_toks (fst (snd c)))).
  { unfold name. unfold moves in M. apply andb_true_iff in M. destruct M as [M _]. apply andb_true_iff in M. destruct M as [_ M]. rewrite existsb_exists in M. destruct M as (t & It & Tt).
    destruct (filter (fun t0 => ttype_eqb (tyof x t0) T_IDENT) (w_toks (fst (snd c)))) as [|u r] eqn:F; [exfalso; assert (K : In t []) by (rewrite <- F; apply filter_In; auto); destruct K|].
    cbn. assert (K : In u (u :: r)) by (left; reflexivity). rewrite <- F in K. apply filter_In in K. apply K. }
  split; [exact WW|]. split; [unfold eat; rewrite WW; reflexivity|]. split; [|split; [exact IN|rewrite Q'; apply in_or_app; right; apply in_or_app; left; exact IN]].
  unfold seg, dv. cbn [v_range]. destruct (w_toks (fst (snd c))) as [|t ts]; [contradiction|]. exists t, ts, l1, ([w_delim (fst (snd c))] ++ l2). split; [cbn [hd]; f_equal; apply last_cons_snoc|exact Q'].
Qed.

Lemma job_vars_dv : forall s, inv x ps s -> Forall2 (fun j k => job_vars j = map (fun c => dv x (snd c)) (filter (from x k) (moved x ps))) (jobs (c_types s)) (cls (c_types s)).
Proof.
  intros s I. pose proof (jobs_cls (c_types s) (in_nodup _ _ _ I)) as F. induction F as [|j [k m] a b (_ & _ & _ & Q & _) F IH]; [constructor|]. constructor; [|exact IH]. rewrite Q. cbn [fst snd]. apply (in_vars _ _ _ I).
Qed.
Lemma cls_all : forall s c, inv x ps s -> In c (moved x ps) -> In (class x c) (cls (c_types s)).
Proof.
  intros s c I Ic. apply cls_in. rewrite (in_vars _ _ _ I). fold (class x c). intros Q. apply map_eq_nil in Q. assert (K : In c (filter (from x (fst c, stars x (fst (snd c)))) (flat_map (pclaims x) ps))) by (apply filter_In; split; [exact Ic|apply from_spec; reflexivity]).
  fold (class x c) in K. rewrite Q in K. destruct K.
Qed.
Lemma D_perm : forall s, inv x ps s -> Permutation (flat_map (eat x) (flat_map job_vars (jobs (c_types s)))) (eaten x ps).
Proof.
  intros s I.
  assert (Q : flat_map (eat x) (flat_map job_vars (jobs (c_types s))) = flat_map (fun c => ceat (snd c)) (flat_map (fun k => filter (from x k) (moved x ps)) (cls (c_types s)))).
  { pose proof (job_vars_dv s I) as F. induction F as [|j k a b Q F IH]; [reflexivity|]. cbn [flat_map]. rewrite !flat_map_app, IH, Q. f_equal.
    assert (G : forall l, incl l (moved x ps) -> flat_map (eat x) (map (fun c => dv x (snd c)) l) = flat_map (fun c => ceat (snd c)) l).
    { induction l as [|c l IHl]; intros Hl; [reflexivity|]. cbn [map flat_map]. rewrite IHl by (intros d J; apply Hl; right; exact J). f_equal. apply W_dv. apply Hl. left. reflexivity. }
    apply G. intros c J. apply filter_In in J. apply J. }
  rewrite Q. unfold eaten. apply Permutation_flat_map. apply partition; [apply cls_nodup; apply (in_nodup _ _ _ I)|]. intros c Ic. apply cls_all; assumption.
Qed.
Lemma jobs_ok : forall s, inv x ps s -> Forall (job_ok x) (jobs (c_types s)) /\ forall j i, In j (jobs (c_types s)) -> In i (over x (t_range (fst j))) -> ~ In i (eaten x ps).
Proof.
  intros s I. pose proof (jobs_cls (c_types s) (in_nodup _ _ _ I)) as F. pose proof (job_vars_dv s I) as F2. pose proof (in_type _ _ _ I) as FT. rewrite Forall_forall in FT.
  assert (G : forall j, In j (jobs (c_types s)) -> job_ok x j /\ forall i, In i (over x (t_range (fst j))) -> ~ In i (eaten x ps)).
  { intros j Ij. revert F2. induction F as [|j' k a b (H1 & H2 & H3 & _ & H5) F IH]; intros F2; [destruct Ij|]. inv F2. destruct Ij as [->|Ij]; [|apply IH; assumption]. clear IH.
    match goal with K : job_vars j = _ |- _ => rename K into Ev end. destruct (FT _ H1) as [(ty & n & vs & Ip & V & Er & Es) Mk An]. rewrite Forall_forall in Mk, An.
    assert (OV : over x (t_range (fst j)) = ty) by (rewrite Er; eapply ty_over; exact Ip). split.
    - constructor.
      + exact H5.
      + specialize (An _ H3). specialize (Mk _ H3). unfold anchored, anchor in *. destruct Mk as [M1 M2]. destruct (s_kept (snd j)) as [a0|].
        * exists a0. split; [reflexivity|]. eapply semi_for_in. apply M1. reflexivity.
        * destruct (s_fallback (snd j)) as [a0|]; [|contradiction]. exists a0. split; [reflexivity|]. eapply semi_for_in. apply M2. reflexivity.
      + destruct (ty_seg _ _ _ Ip) as (N & l1 & l2 & Q). rewrite Er. destruct ty as [|t ts]; [contradiction|]. exists t, ts, l1, l2. split; [cbn [hd]; f_equal; apply last_cons_snoc|exact Q].
      + rewrite OV. intros i Ii. split; [|split; [apply cb; eapply valid_clear; eassumption|]].
        * eapply piece_in; [exact Ip|]. cbn [ptoks]. apply in_or_app. left. exact Ii.
        * destruct (piece_called _ Ip) as (_ & _ & Ft & _). rewrite Forall_forall in Ft. destruct (Ft i Ii). auto.
      + unfold vars_ok. rewrite Ev. apply Forall_forall. intros v Iv. apply in_map_iff in Iv. destruct Iv as (c & <- & Ic). apply filter_In in Ic. destruct Ic as [Ic _]. destruct (W_dv c Ic) as (_ & _ & A & _ & B). split; [exact A|exact B].
    - rewrite OV. intros i Ii. eapply ty_not_eaten; [exact Ip|exact Ii]. }
  split; [apply Forall_forall; intros j Ij; apply G; exact Ij|]. intros j i Ij. apply G. exact Ij.
Qed.

(** The declarations left empty. *)
Definition bodies : list (list id) := map ptoks (filter (emptied x) ps).
Lemma emptied_inv : forall p, In p (filter (emptied x) ps) -> exists ty n vs, p = Declares ty n vs /\ In p ps /\ valid x ty n vs = true /\ forallb (moves x) vs = true.
Proof.
  intros p I. apply filter_In in I. destruct I as [I Q]. destruct p as [l cs|ty n vs]; [discriminate|]. cbn in Q. apply andb_true_iff in Q. exists ty, n, vs. split; [reflexivity|]. split; [exact I|exact Q].
Qed.
Lemma bodies_of : forall s, inv x ps s -> Forall2 (body_of x) (c_empty s) bodies.
Proof.
  intros s I. pose proof (in_empty _ _ _ I) as F. unfold bodies. assert (G : forall p, In p (filter (emptied x) ps) -> exists ty n vs, p = Declares ty n vs /\ In p ps) by (intros p Ip; destruct (emptied_inv p Ip) as (ty & n & vs & A & B & _); eauto).
  induction F as [|d p a b Q F IH]; [constructor|]. cbn [map]. constructor; [|apply IH; intros q Iq; apply G; right; exact Iq].
  destruct (G p (or_introl eq_refl)) as (ty & n & vs & -> & Ip). destruct (piece_seg _ Ip) as (l1 & l2 & Q2). destruct (semi_spec _ _ _ Ip) as (l & El & Nl & _). rewrite El in *.
  destruct l as [|t r]; [contradiction|]. exists t, (r ++ [semi_of (Declares ty n vs)]), l1, l2. split; [reflexivity|]. split; [rewrite last_last; exact Q|exact Q2].
Qed.
Lemma bodies_nodup : NoDup (concat bodies).
Proof.
  unfold bodies. rewrite <- flat_map_concat_map. pose proof ND as N. rewrite EL in N. revert N. generalize ps. intros qs. induction qs as [|p qs IH]; intros N; [constructor|]. cbn [flat_map filter] in *.
  apply IncludeProps.nodup_app in N. destruct N as (N1 & N2 & N3). destruct (emptied x p); [|auto]. cbn [flat_map]. apply IncludeProps.nodup_app. split; [exact N1|]. split; [auto|].
  intros t I J. apply (N3 t I). apply in_flat_map in J. destruct J as (q & Iq & J). apply filter_In in Iq. apply in_flat_map. exists q. tauto.
Qed.
Lemma emptied_clear : forall ty n vs i, In (Declares ty n vs) ps -> valid x ty n vs = true -> forallb (moves x) vs = true -> In i (ptoks (Declares ty n vs)) ->
  clear x i = true /\ tyof x i <> T_EOF /\ (i <> semi_of (Declares ty n vs) -> tyof x i <> T_SEMI).
Proof.
  intros ty n vs i I V M J. rewrite forallb_forall in M. destruct (piece_called _ I) as (_ & _ & Ft & _ & _ & us & v & Ev & Ts & Fc & _). cbn [ptoks] in J. apply in_app_or in J. destruct J as [J|J].
  - rewrite Forall_forall in Ft. destruct (Ft i J) as [A B]. split; [eapply valid_clear; eassumption|]. auto.
  - apply in_flat_map in J. destruct J as (w & Iw & J). unfold vtoks in J. apply in_app_or in J. destruct J as [J|[<-|[]]].
    + destruct (moves_fine _ _ (M w Iw) J) as [C [Q|Q]]; rewrite Q; repeat split; try discriminate; exact C.
    + split; [apply moves_clear, M, Iw|]. subst vs. rewrite semi_of_snoc. apply in_app_or in Iw. destruct Iw as [Iw|[<-|[]]].
      * rewrite Forall_forall in Fc. rewrite (Fc w Iw). split; [discriminate|]. intros _. discriminate.
      * rewrite Ts. split; [discriminate|]. intros K. contradiction.
Qed.
Lemma bodies_ok : forall t r, In (t :: r) bodies -> ~ In t (eaten x ps) /\ ~ In (last r t) (eaten x ps) /\
  (forall i, In i (t :: r) -> ~ In i (eaten x ps) -> bare (x_heap x) i /\ tyof x i <> T_EOF) /\ (forall i, In i (t :: r) -> i <> last r t -> tyof x i <> T_SEMI).
Proof.
  intros t r I. unfold bodies in I. apply in_map_iff in I. destruct I as (p & Q & Ip). destruct (emptied_inv p Ip) as (ty & n & vs & -> & Ip' & V & M). destruct (semi_spec _ _ _ Ip') as (l & El & Nl & Ts).
  assert (LR : last r t = semi_of (Declares ty n vs)).
  { rewrite <- (last_cons_snoc r t 0), <- Q, El, last_last. reflexivity. }
  split; [|split; [|split]].
  - assert (t = hd 0 ty) as ->. { destruct (piece_called _ Ip') as (N & _). destruct ty as [|u ty]; [contradiction|]. cbn in Q. injection Q as -> _. reflexivity. }
    eapply ty_not_eaten; [exact Ip'|]. destruct (piece_called _ Ip') as (N & _). destruct ty; [contradiction|left; reflexivity].
  - rewrite LR. intros K. destruct (eaten_fine _ K) as (_ & _ & _ & K2). contradiction.
  - intros i Ii _. rewrite <- cb. rewrite <- Q in Ii. destruct (emptied_clear _ _ _ _ Ip' V M Ii) as (A & B & _). auto.
  - intros i Ii Ni. rewrite <- Q in Ii. rewrite LR in Ni. destruct (emptied_clear _ _ _ _ Ip' V M Ii) as (_ & _ & C). auto.
Qed.

(** ** The groups *)
Lemma lays_fresh : forall y ty s t, lays x y (New ty s) t -> fresh x y ty s t.
Proof. intros y ty s t (A & B & C & D). split; [exact A|]. split; [exact B|]. split; [exact C|]. apply clear_bare. exact D. Qed.
Lemma old_inv : forall y l q, Forall2 (lays x y) (map Old l) q -> q = l.
Proof. intros y l. induction l as [|t l IH]; intros q F; inv F; [reflexivity|]. f_equal; [assumption|auto]. Qed.
Lemma names_inv : forall y vs w l, Forall2 (lays x y) (map Old w ++ flat_map (further x) vs ++ [New T_SEMI (s2b ";")]) l ->
  exists us v, l = flat_map vtoks (us ++ [v]) /\ map w_toks (us ++ [v]) = w :: map (W x) vs /\ Forall (fun u => fresh x y T_COMMA (s2b ",") (w_delim u)) us /\ fresh x y T_SEMI (s2b ";") (w_delim v).
Proof.
  intros y vs. induction vs as [|u vs IH]; intros w l F; apply Forall2_app_inv_l in F; destruct F as (l1 & l2 & F1 & F2 & ->); apply old_inv in F1; subst l1.
  - cbn [flat_map app] in F2. inv F2. match goal with K : Forall2 _ [] _ |- _ => inv K end. match goal with K : lays _ _ _ ?d |- _ => exists [], (Var w d) end. cbn [app flat_map map w_toks w_delim]. rewrite app_nil_r. split; [reflexivity|]. split; [reflexivity|]. split; [constructor|]. apply lays_fresh. assumption.
  - cbn [flat_map] in F2. unfold further at 1 in F2. cbn [app] in F2. inv F2. match goal with K : Forall2 _ _ ?q, J : lays _ _ _ ?d |- _ => rewrite <- app_assoc in K; destruct (IH _ _ K) as (us & v & -> & Em & Fu & Fv); exists (Var w d :: us), v end.
    cbn [app flat_map map w_toks w_delim vtoks]. split; [unfold vtoks at 2; cbn [w_toks w_delim]; rewrite <- app_assoc; reflexivity|]. split; [rewrite Em; reflexivity|]. split; [|exact Fv]. constructor; [|exact Fu]. cbn [w_delim]. apply lays_fresh. assumption.
Qed.
Lemma group_inv : forall y ty vs l, vs <> [] -> Forall2 (lays x y) (SdeclLeave.group x ty vs) l ->
  exists ty' us v, l = ty' ++ flat_map vtoks (us ++ [v]) /\ Forall2 (fun a b => fresh x y (tyof x a) (n_str (x_heap x a)) b) ty ty' /\ map w_toks (us ++ [v]) = map (W x) vs /\
    Forall (fun u => fresh x y T_COMMA (s2b ",") (w_delim u)) us /\ fresh x y T_SEMI (s2b ";") (w_delim v).
Proof.
  intros y ty vs l N F. unfold SdeclLeave.group in F. apply Forall2_app_inv_l in F. destruct F as (l1 & l2 & F1 & F2 & ->). destruct vs as [|v0 vs]; [contradiction|]. cbn [names] in F2. rewrite <- app_assoc in F2.
  destruct (names_inv _ _ _ _ F2) as (us & v & -> & Em & Fu & Fv). exists l1, us, v. split; [reflexivity|]. split; [|split; [exact Em|auto]].
  clear -F1. revert l1 F1. induction ty as [|t ty IH]; intros l1 F; inv F; constructor; [|auto]. apply lays_fresh. assumption.
Qed.

Hypothesis NN : forall t, In t L0 -> ~ In NUL (n_str (x_heap x t)).
Lemma sorted_map : forall A B (f : A -> B) (P : B -> B -> Prop) (Q : A -> A -> Prop) l, (forall a b, In a l -> In b l -> P (f a) (f b) -> Q a b) -> StronglySorted P (map f l) -> StronglySorted Q l.
Proof.
  intros A B f P Q l H S. induction l as [|a l IH]; [constructor|]. cbn [map] in S. inv S. constructor; [apply IH; [intros b c I J; apply H; right; assumption|assumption]|].
  match goal with K : Forall _ _ |- _ => rewrite Forall_forall in *; intros b I; apply H; [left; reflexivity|right; exact I|apply K; apply in_map; exact I] end.
Qed.
Lemma made_stands : forall y s j k g, inv x ps s -> In (fst j) (c_types s) -> t_str (fst j) = fst k -> In (snd j) (t_slots (fst j)) -> job_vars j <> [] ->
  job_vars j = map (fun c => dv x (snd c)) (filter (from x k) (moved x ps)) -> made x y j g -> exists G, g_class G = k /\ (g_after G, ptoks (gdecl G)) = g /\ stands x y ps G.
Proof.
  intros y s j k [a l] I It Ek Is Nj Ev (An & vs & P & S & F). cbn [fst snd] in *. pose proof (in_type _ _ _ I) as FT. rewrite Forall_forall in FT. destruct (FT _ It) as [(ty & n & vs0 & Ip & V & Er & Es) Mk _]. rewrite Forall_forall in Mk. specialize (Mk _ Is).
  rewrite Er, (ty_over _ _ _ Ip) in F. assert (Nv : vs <> []). { intros ->. symmetry in P. apply Permutation_nil in P. contradiction. }
  rewrite Ev in P. symmetry in P. apply Permutation_map_inv in P. destruct P as (cs & Ec & P).
  assert (IC : forall c, In c cs -> In c (moved x ps)). { intros c Ic. apply (Permutation_in _ (Permutation_sym P)) in Ic. apply filter_In in Ic. apply Ic. }
  destruct (group_inv _ _ _ _ Nv F) as (ty' & us & v & -> & Ft & Em & Fu & Fv). exists (Group k a ty' (us ++ [v])). split; [reflexivity|]. split; [reflexivity|]. constructor; cbn [g_class g_after g_type g_vars].
  - rewrite <- Ek. destruct Mk as [M1 M2]. unfold anchor in An. destruct (s_kept (snd j)) as [a0|]; [injection An as ->; apply M1; reflexivity|apply M2; exact An].
  - exists ty, n, vs0. split; [exact Ip|]. split; [exact V|]. split; [congruence|exact Ft].
  - exists (map (fun c => fst (snd c)) cs). split; [|split; [|split]].
    + intros Q. apply map_eq_nil in Q. subst cs. apply Nv. rewrite Ec. reflexivity.
    + apply Permutation_map. exact P.
    + rewrite Ec in S. assert (G : forall l, incl l (moved x ps) -> StronglySorted (fun a b => (var_cmp (x_heap x) a b <= 0)%Z) (map (fun c => dv x (snd c)) l) -> StronglySorted (fun a b => ForwardProps.text_le (n_str (x_heap x (name x a))) (n_str (x_heap x (name x b)))) (map (fun c => fst (snd c)) l)).
      { induction l as [|c l IH]; intros Hl Sl; [constructor|]. cbn [map] in *. inv Sl. constructor; [apply IH; [intros d J; apply Hl; right; exact J|assumption]|]. apply Forall_forall. intros b Ib. apply in_map_iff in Ib. destruct Ib as (d & <- & Id).
        match goal with K : Forall _ _ |- _ => rewrite Forall_forall in K; specialize (K _ (in_map (fun c => dv x (snd c)) _ _ Id)); unfold var_cmp, dv in K; cbn [v_sort] in K; apply ForwardProps.lex_text; [| |exact K] end; apply NN, W_dv, Hl; [left; reflexivity|right; exact Id]. }
      apply G; [exact IC|exact S].
    + rewrite Em, Ec, !map_map. apply map_ext_in. intros c Ic. apply W_dv. auto.
  - exists us, v. auto.
Qed.

Variable qsort : forall A, (A -> A -> Z) -> list A -> list A.
Hypothesis QS : IncludeProps.qsort_ok qsort.
Lemma var_consistent : forall h, IncludeProps.consistent (var_cmp h).
Proof.
  intros h. split; unfold var_cmp.
  - intros a b. rewrite !IncludeProps.strcmp_lex, IncludeProps.lex_anti. lia.
  - intros a b c. rewrite !IncludeProps.strcmp_le. apply IncludeProps.lex_trans.
Qed.
Lemma closes_spec : forall p a, In p ps -> closes p a = true -> In a (ptoks p).
Proof. intros [l cs|ty n vs] a Ip C; [discriminate|]. cbn [closes] in C. apply Nat.eqb_eq in C. subst a. apply semi_in. exact Ip. Qed.
Lemma form_piece : forall gs p D, In p ps -> (forall g, In g gs -> exists k, semi_for x ps k (fst g)) ->
  form D gs (ptoks p) = filter (fun t => negb (mem t D)) (ptoks p) ++ flat_map (fun g => if closes p (fst g) then snd g else []) gs.
Proof.
  intros gs p D Ip Hg.
  assert (A : forall t, In t (ptoks p) -> behind gs t <> [] -> closes p t = true).
  { intros t It N. destruct (behind gs t) as [|i r] eqn:Eb; [contradiction|]. destruct (behind_in gs t i) as (g & Ig & <- & _); [rewrite Eb; left; reflexivity|]. destruct (Hg g Ig) as (k & ty & n & vs & Iq & _ & _ & Ea).
    assert (p = Declares ty n vs) as ->. { eapply piece_eq; [exact Ip|exact Iq|exact It|]. rewrite Ea. apply semi_in. exact Iq. } cbn [closes]. rewrite Ea. apply Nat.eqb_refl. }
  destruct p as [l cs|ty n vs].
  - rewrite form_keep; [cbn [closes]; replace (flat_map _ gs) with (@nil id); [rewrite app_nil_r; reflexivity|induction gs as [|g gs IH]; [reflexivity|]; cbn; apply IH; [intros h Ih; apply Hg; right; exact Ih|intros t It N; apply (A t It); cbn; destruct (fst g =? t); [|exact N]; intros Q; apply app_eq_nil in Q; tauto]]|].
    intros t It. destruct (behind gs t) eqn:Eb; [reflexivity|]. exfalso. assert (K : closes (Other l cs) t = true) by (apply A; [exact It|rewrite Eb; discriminate]). discriminate K.
  - destruct (semi_spec _ _ _ Ip) as (l & El & _ & _). pose proof ND as N. destruct (piece_seg _ Ip) as (l1 & l2 & Q). rewrite Q in N. apply nd_r in N. apply nd_l in N. rewrite El in N.
    assert (B : forall t, In t l -> behind gs t = []).
    { intros t It. destruct (behind gs t) eqn:Eb; [reflexivity|]. exfalso. assert (K : closes (Declares ty n vs) t = true) by (apply A; [rewrite El; apply in_or_app; left; exact It|rewrite Eb; discriminate]).
      cbn [closes] in K. apply Nat.eqb_eq in K. subst t. apply IncludeProps.nodup_app in N. destruct N as (_ & _ & N). apply (N _ It). left. reflexivity. }
    rewrite El, form_app, form_keep by exact B. rewrite filter_app, <- app_assoc. f_equal. rewrite form_cons. cbn [filter form flat_map closes]. rewrite app_nil_r. destruct (mem _ D); cbn [negb app]; reflexivity.
Qed.

Lemma grouped : exists y gs, simple_decl qsort (flat_map (pcalls x) ps) x = Some y /\ ready E y /\ keeps x y /\
  x_toks y = flat_map (fun p => rest x ps p ++ flat_map (fun g => if closes p (g_after g) then ptoks (gdecl g) else []) gs) ps /\
  Forall (stands x y ps) gs /\ NoDup (map g_class gs) /\ (forall c, In c (moved x ps) -> In (class x c) (map g_class gs)) /\
  (forall t, In t L0 -> clear x t = false -> In t (x_toks y)).
Proof.
  destruct (run_all E x R0 ps CA EL) as (s & Es & I). unfold simple_decl. rewrite Es. destruct (jobs_ok s I) as [JO JT]. pose proof (D_perm s I) as DP.
  destruct (st_leave E x R0 qsort (fun h l => QS _ _ (var_consistent h) l) s bodies JO) as (y & gs & Ey & A & F).
  - apply (Permutation_NoDup (Permutation_sym DP)). exact eaten_nodup.
  - intros i Ii. apply eaten_fine. eapply Permutation_in; [exact DP|exact Ii].
  - intros j i Ij Ii K. apply (JT j i Ij Ii). eapply Permutation_in; [exact DP|exact K].
  - apply bodies_of. exact I.
  - exact bodies_nodup.
  - intros t r Ib. destruct (bodies_ok t r Ib) as (B1 & B2 & B3 & B4). assert (Z : forall i, In i (flat_map (eat x) (flat_map job_vars (jobs (c_types s)))) <-> In i (eaten x ps)) by (intros i; split; apply Permutation_in; [exact DP|symmetry; exact DP]).
    split; [rewrite Z; exact B1|]. split; [rewrite Z; exact B2|]. split; [|exact B4]. intros i Ii Ni. apply B3; [exact Ii|]. rewrite <- Z. exact Ni.
  - apply (at_ext E x _ (concat bodies ++ eaten x ps)) in A.
    2:{ intros t. rewrite !in_app_iff. split; intros [K|K]; auto; right; [eapply Permutation_in; [exact DP|exact K]|eapply Permutation_in; [symmetry; exact DP|exact K]]. }
    assert (GG : exists G, map (fun g => (g_after g, ptoks (gdecl g))) G = gs /\ Forall (stands x y ps) G /\ map g_class G = cls (c_types s)).
    { pose proof (jobs_cls (c_types s) (in_nodup _ _ _ I)) as F1. pose proof (job_vars_dv s I) as F2. clear -F F1 F2 I R0 EL CA NN. revert gs F F2. induction F1 as [|j k a b (H1 & H2 & H3 & _ & H5) F1 IH]; intros gs F F2.
      - inv F. exists []. repeat split; constructor.
      - inv F. inv F2. match goal with K : Forall2 (made x y) a ?l', J : Forall2 _ a b |- _ => destruct (IH _ K J) as (G & E1 & E2 & E3) end.
        match goal with K : made x y j ?g |- _ => destruct (made_stands y s j k g I H1 H2 H3 H5 ltac:(assumption) K) as (g0 & Q1 & Q2 & Q3) end.
        exists (g0 :: G). cbn [map]. rewrite E1, E3, Q1, Q2. split; [reflexivity|]. split; [constructor; assumption|reflexivity]. }
    destruct GG as (G & EG & FS & EC). exists y, (rev G). split; [exact Ey|]. split; [exact (at_ready _ _ _ _ _ A)|]. split; [exact (at_keeps _ _ _ _ _ A)|]. split; [|split; [|split; [|split]]].
    + rewrite (at_toks _ _ _ _ _ A), EL. rewrite <- EG, <- map_rev. unfold form at 1. 
      assert (SG : forall g, In g (map (fun g => (g_after g, ptoks (gdecl g))) (rev G)) -> exists k, semi_for x ps k (fst g)).
      { intros g Ig. apply in_map_iff in Ig. destruct Ig as (g1 & <- & Ig). apply in_rev in Ig. rewrite Forall_forall in FS. cbn [fst]. eexists. apply (st_after _ _ _ _ (FS _ Ig)). }
      assert (ALL : forall qs, incl qs ps -> form (concat bodies ++ eaten x ps) (map (fun g => (g_after g, ptoks (gdecl g))) (rev G)) (flat_map ptoks qs) = flat_map (fun p => rest x ps p ++ flat_map (fun g => if closes p (g_after g) then ptoks (gdecl g) else []) (rev G)) qs).
      { induction qs as [|p qs IH]; intros Hq; [reflexivity|]. cbn [flat_map]. rewrite form_app, IH by (intros q Iq; apply Hq; right; exact Iq). f_equal.
        assert (Ip : In p ps) by (apply Hq; left; reflexivity). rewrite (form_piece _ p _ Ip SG). f_equal.
        - unfold rest. destruct (emptied x p) eqn:Ee.
          + assert (Hall : forall t, In t (ptoks p) -> mem t (concat bodies ++ eaten x ps) = true).
            { intros t It. apply mem_spec. apply in_or_app. left. apply in_concat. exists (ptoks p). split; [|exact It]. unfold bodies. apply in_map. apply filter_In. auto. }
            clear -Hall. induction (ptoks p) as [|t l IH]; [reflexivity|]. cbn [filter]. rewrite (Hall t (or_introl eq_refl)). cbn [negb]. apply IH. intros u Iu. apply Hall. right. exact Iu.
          + apply filter_ext_in. intros t It. f_equal. unfold mem. rewrite existsb_app. replace (existsb (Nat.eqb t) (concat bodies)) with false; [reflexivity|]. symmetry. apply mem_no. intros K. apply in_concat in K. destruct K as (b & Ib & Itb). unfold bodies in Ib. apply in_map_iff in Ib. destruct Ib as (q & <- & Iq). apply filter_In in Iq. destruct Iq as [Iq Eq].
            assert (p = q) by (eapply piece_eq; eassumption). congruence.
        - rewrite flat_map_concat_map, map_map, <- flat_map_concat_map. reflexivity. }
      apply (ALL ps). intros p Ip. exact Ip.
    + apply Forall_rev. exact FS.
    + rewrite map_rev. apply NoDup_rev. rewrite EC. apply cls_nodup. apply (in_nodup _ _ _ I).
    + intros c Ic. rewrite map_rev, <- in_rev, EC. apply cls_all; assumption.
    + intros t It Ct. rewrite (at_toks _ _ _ _ _ A). apply form_in. exists t. split; [exact It|]. left. split; [reflexivity|]. intros K. apply in_app_or in K. destruct K as [K|K].
      * apply in_concat in K. destruct K as (b & Ib & Itb). unfold bodies in Ib. apply in_map_iff in Ib. destruct Ib as (q & <- & Iq). destruct (emptied_inv q Iq) as (ty & n & vs & -> & Ip & V & M). destruct (emptied_clear _ _ _ _ Ip V M Itb) as [C _]. congruence.
      * destruct (eaten_fine _ K) as (_ & B & _). apply cb in B. congruence.
Qed.

(** ** What is left of declarations *)
Definition keep (D l : list id) : list id := filter (fun t => negb (mem t D)) l.
Lemma keep_app : forall D a b, keep D (a ++ b) = keep D a ++ keep D b.
Proof. intros. apply filter_app. Qed.
Lemma keep_none : forall D l, (forall t, In t l -> In t D) -> keep D l = [].
Proof. intros D l H. induction l as [|t l IH]; [reflexivity|]. cbn [keep filter]. rewrite (proj2 (mem_spec t D)) by (apply H; left; reflexivity). cbn [negb]. apply IH. intros u I. apply H. right. exact I. Qed.
Lemma keep_all : forall D l, (forall t, In t l -> ~ In t D) -> keep D l = l.
Proof. intros D l H. induction l as [|t l IH]; [reflexivity|]. cbn [keep filter]. rewrite (proj2 (mem_no t D)) by (apply H; left; reflexivity). cbn [negb]. f_equal. apply IH. intros u I. apply H. right. exact I. Qed.
Lemma keep_ext : forall D D' l, (forall t, In t l -> (In t D <-> In t D')) -> keep D l = keep D' l.
Proof.
  intros D D' l H. apply filter_ext_in. intros t I. f_equal. destruct (mem t D) eqn:A, (mem t D') eqn:B; try reflexivity; exfalso.
  - apply mem_spec in A. apply mem_no in B. apply B, H; assumption.
  - apply mem_spec in B. apply mem_no in A. apply A, H; assumption.
Qed.
Lemma claims_incl : forall vs pend t, In t (flat_map ceat (claims x pend vs)) -> In t (opt pend ++ flat_map vtoks vs).
Proof. intros vs pend t I. destruct (claims_part x vs pend) as (r & P). eapply Permutation_in; [exact P|]. apply in_or_app. left. exact I. Qed.
Lemma row_snoc : forall us v, tyof x (w_delim v) = T_SEMI -> Forall (fun u => tyof x (w_delim u) = T_COMMA) us -> row x (us ++ [v]).
Proof. intros us v S F. induction F as [|u us H F IH]; [exact S|]. cbn [app row]. destruct (us ++ [v]) eqn:Q; [destruct us; discriminate|]. split; [exact H|exact IH]. Qed.
Lemma all_moved : forall vs, filter (fun v => negb (moves x v)) vs = [] <-> forallb (moves x) vs = true.
Proof. induction vs as [|v vs IH]; [split; reflexivity|]. cbn [filter forallb]. destruct (moves x v); cbn [negb andb]; [exact IH|split; discriminate]. Qed.

Lemma left_row : forall vs pend, NoDup (opt pend ++ flat_map vtoks vs) -> row x vs -> settled x vs = true ->
  let D := flat_map ceat (claims x pend vs) in let K := filter (fun v => negb (moves x v)) vs in
  (pend = None -> K <> [] -> exists ks, keep D (flat_map vtoks vs) = flat_map vtoks ks /\ map w_toks ks = map w_toks K /\ row x ks) /\
  (forall c, pend = Some c -> tyof x c = T_COMMA ->
    (K = [] -> exists s, keep D (c :: flat_map vtoks vs) = [s] /\ tyof x s = T_SEMI) /\
    (K <> [] -> exists c' ks, keep D (c :: flat_map vtoks vs) = c' :: flat_map vtoks ks /\ tyof x c' = T_COMMA /\ map w_toks ks = map w_toks K /\ row x ks)).
Proof.
  induction vs as [|v vs IH]; intros pend N R S D K; [destruct R|]. destruct vs as [|w vs].
  - cbn [row] in R. unfold D, K. cbn [claims filter flat_map] in *. rewrite app_nil_r in *. destruct (moves x v) eqn:M; cbn [negb].
    + split; [intros _ Q; contradiction|]. intros c -> Tc. split; [|intros Q; contradiction]. intros _. exists (w_delim v). split; [|exact R]. cbn [flat_map opt app] in *. unfold ceat. cbn [fst snd]. rewrite app_nil_r.
      change (c :: vtoks v) with ([c] ++ vtoks v) in *. rewrite keep_app, keep_none by (intros t [<-|[]]; apply in_or_app; right; left; reflexivity). unfold vtoks in *. rewrite keep_app, keep_none by (intros t I; apply in_or_app; left; exact I).
      cbn [app]. apply keep_all. intros t [<-|[]] I. apply in_app_or in I. inversion N as [|? ? N1 N2]. destruct I as [I|[I|[]]]; [|apply N1; rewrite I; apply in_or_app; right; left; reflexivity].
      apply IncludeProps.nodup_app in N2. destruct N2 as (_ & _ & N2). apply (N2 _ I). left. reflexivity.
    + cbn [flat_map]. rewrite !keep_all by (intros t _ []). split.
      * intros _ _. exists [v]. cbn. rewrite app_nil_r. auto.
      * intros c -> Tc. split; [discriminate|]. intros _. exists c, [v]. rewrite keep_all by (intros t _ []). cbn [flat_map map row]. rewrite app_nil_r. auto.
  - remember (w :: vs) as ws eqn:Ew. assert (NW : ws <> []) by (rewrite Ew; discriminate).
    assert (RW : tyof x (w_delim v) = T_COMMA /\ row x ws) by (subst ws; exact R). destruct RW as [Tv RW].
    assert (SW : (moves x v || (clear x (w_delim v) || negb (forallb (moves x) ws))) = true /\ settled x ws = true) by (subst ws; cbn [settled] in S; apply andb_true_iff in S; exact S). destruct SW as [Sv SW]. clear R S Ew.
    unfold D, K. rewrite (claims_cons x v ws pend NW). cbn [filter flat_map] in *.
    assert (NF : NoDup (opt (Some (w_delim v)) ++ flat_map vtoks ws)). { apply nd_r in N. unfold vtoks at 1 in N. rewrite <- app_assoc in N. apply nd_r in N. exact N. }
    assert (NF0 : NoDup (opt None ++ flat_map vtoks ws)) by (apply nd_r in NF; exact NF).
    destruct (moves x v) eqn:M; cbn [negb].
    + destruct pend as [c|].
      * split; [discriminate|]. intros c0 Q. injection Q as <-. intros Tc.
        assert (EK : keep (flat_map ceat ((v, Some c) :: claims x (Some (w_delim v)) ws)) (c :: vtoks v ++ flat_map vtoks ws) = keep (flat_map ceat (claims x (Some (w_delim v)) ws)) (w_delim v :: flat_map vtoks ws)).
        { replace (c :: vtoks v ++ flat_map vtoks ws) with ((c :: w_toks v) ++ (w_delim v :: flat_map vtoks ws)) by (unfold vtoks at 2; rewrite <- app_assoc; reflexivity). rewrite keep_app, keep_none.
          - cbn [app]. apply keep_ext. intros t It. cbn [flat_map]. rewrite in_app_iff. split; [|auto]. intros [J|J]; [exfalso|exact J]. unfold ceat in J. cbn [fst snd] in J.
            assert (N' : NoDup ((c :: w_toks v) ++ (w_delim v :: flat_map vtoks ws))) by (cbn [opt app] in N; unfold vtoks at 1 in N; rewrite <- app_assoc in N; exact N). apply IncludeProps.nodup_app in N'. destruct N' as (_ & _ & N'). apply (N' t); [|exact It].
            apply in_app_or in J. destruct J as [J|[<-|[]]]; [right; exact J|left; reflexivity].
          - intros t [<-|J]; cbn [flat_map]; apply in_or_app; left; unfold ceat; cbn [fst snd]; apply in_or_app; [right; left; reflexivity|left; exact J]. }
        rewrite EK. destruct (IH (Some (w_delim v)) NF RW SW) as [_ IH2]. apply (IH2 _ eq_refl Tv).
      * split; [|discriminate]. intros _ NK. destruct (IH None NF0 RW SW) as [IH1 _]. destruct (IH1 eq_refl NK) as (ks & E1 & E2 & E3). exists ks. split; [|auto]. rewrite <- E1, keep_app, keep_none.
        -- cbn [app]. apply keep_ext. intros t It. cbn [flat_map]. rewrite in_app_iff. split; [|auto]. intros [J|J]; [exfalso|exact J]. cbn [opt app] in N. apply IncludeProps.nodup_app in N. destruct N as (_ & _ & N). exact (N t J It).
        -- intros t J. cbn [flat_map]. apply in_or_app. left. exact J.
    + set (pend' := if clear x (w_delim v) then Some (w_delim v) else None) in *. set (D' := flat_map ceat (claims x pend' ws)) in *.
      assert (HD : forall t, In t D' -> In t (w_delim v :: flat_map vtoks ws)). { intros t I. apply claims_incl in I. unfold pend' in I. destruct (clear x (w_delim v)); [exact I|right; exact I]. }
      assert (DJ : forall t, In t (opt pend ++ w_toks v) -> ~ In t D').
      { intros t I J. apply HD in J. replace (opt pend ++ vtoks v ++ flat_map vtoks ws) with ((opt pend ++ w_toks v) ++ (w_delim v :: flat_map vtoks ws)) in N by (unfold vtoks at 2; rewrite <- !app_assoc; reflexivity).
        apply IncludeProps.nodup_app in N. destruct N as (_ & _ & N). exact (N t I J). }
      assert (CORE : exists ks, w_toks v ++ keep D' (w_delim v :: flat_map vtoks ws) = flat_map vtoks ks /\ map w_toks ks = w_toks v :: map w_toks (filter (fun v => negb (moves x v)) ws) /\ row x ks).
      { unfold D', pend' in *. destruct (clear x (w_delim v)) eqn:C.
        - destruct (IH (Some (w_delim v)) NF RW SW) as [_ IH2]. destruct (IH2 _ eq_refl Tv) as [Q1 Q2]. destruct (filter (fun v => negb (moves x v)) ws) as [|k0 K0] eqn:EK.
          + destruct (Q1 eq_refl) as (s & -> & Ts). exists [Var (w_toks v) s]. cbn. rewrite app_nil_r. auto.
          + destruct (Q2 ltac:(discriminate)) as (c' & ks & -> & Tc' & Em & Rk). exists (Var (w_toks v) c' :: ks). split; [cbn [flat_map]; change (vtoks (Var (w_toks v) c')) with (w_toks v ++ [c']); rewrite <- app_assoc; reflexivity|]. split; [cbn [map w_toks]; rewrite Em; reflexivity|].
            destruct ks; [destruct Rk|]. split; [exact Tc'|exact Rk].
        - cbn [orb negb] in Sv. destruct (IH None NF0 RW SW) as [IH1 _]. destruct IH1 as (ks & E1 & E2 & E3); [reflexivity|intros Q; apply all_moved in Q; rewrite Q in Sv; discriminate|].
          exists (Var (w_toks v) (w_delim v) :: ks). split; [|split; [cbn [map w_toks]; rewrite E2; reflexivity|destruct ks; [destruct E3|split; [exact Tv|exact E3]]]].
          change (w_delim v :: flat_map vtoks ws) with ([w_delim v] ++ flat_map vtoks ws). rewrite keep_app, E1, keep_all; [cbn [flat_map]; change (vtoks (Var (w_toks v) (w_delim v))) with (w_toks v ++ [w_delim v]); rewrite <- app_assoc; reflexivity|].
          intros t [<-|[]] J. apply claims_incl in J. cbn [opt app] in J. cbn [opt app] in NF. inversion NF. contradiction. }
      assert (EKV : keep D' (vtoks v ++ flat_map vtoks ws) = w_toks v ++ keep D' (w_delim v :: flat_map vtoks ws)).
      { unfold vtoks at 1. rewrite <- app_assoc, keep_app. f_equal. apply keep_all. intros t I. apply DJ. apply in_or_app. right. exact I. }
      destruct CORE as (ks & E1 & E2 & E3). split.
      * intros _ _. exists ks. split; [congruence|]. split; [exact E2|exact E3].
      * intros c -> Tc. split; [discriminate|]. intros _. exists c, ks. split; [|auto]. change (c :: vtoks v ++ flat_map vtoks ws) with ([c] ++ (vtoks v ++ flat_map vtoks ws)). rewrite keep_app, EKV, E1, keep_all; [reflexivity|].
        intros t [<-|[]]. apply DJ. left. reflexivity.
Qed.

Lemma eaten_piece : forall p t, In p ps -> In t (ptoks p) -> In t (eaten x ps) -> exists c, In c (pclaims x p) /\ In t (ceat (snd c)).
Proof.
  intros p t Ip It Ie. unfold eaten in Ie. apply in_flat_map in Ie. destruct Ie as (c & Ic & Ie). unfold moved in Ic. apply in_flat_map in Ic. destruct Ic as (q & Iq & Ic). assert (p = q) as ->; [|eauto].
  eapply piece_eq; [exact Ip|exact Iq|exact It|]. destruct q as [l cs|ty n vs]; [destruct Ic|]. cbn [pclaims] in Ic. destruct (valid x ty n vs); [|destruct Ic]. apply in_map_iff in Ic. destruct Ic as (d & <- & Id). cbn [snd] in Ie. cbn [ptoks]. apply in_or_app. right.
  apply (claims_incl vs None). apply in_flat_map. eauto.
Qed.
Lemma left_over : forall p, In p ps -> psettled x p = true -> exists q, rest x ps p = ptoks q /\ remains x p q.
Proof.
  intros p Ip Sp. assert (SAME : pclaims x p = [] -> emptied x p = false -> rest x ps p = ptoks p).
  { intros Hc He. unfold rest. rewrite He. apply (keep_all (eaten x ps)). intros t It Ie. destruct (eaten_piece p t Ip It Ie) as (c & Ic & _). rewrite Hc in Ic. destruct Ic. }
  destruct p as [l cs|ty n vs]; [exists (Other l cs); split; [apply SAME; reflexivity|reflexivity]|]. cbn [remains]. destruct (valid x ty n vs) eqn:V; cbn [negb].
  2:{ exists (Declares ty n vs). split; [apply SAME; cbn; rewrite V; reflexivity|reflexivity]. }
  destruct (forallb (moves x) vs) eqn:M; [exists (Other [] []); split; [unfold rest; cbn [emptied]; rewrite V, M; reflexivity|reflexivity]|].
  cbn [psettled] in Sp. rewrite V in Sp. cbn [negb orb] in Sp. destruct (piece_called _ Ip) as (_ & _ & _ & _ & _ & us & v & Ev & Ts & Fc & _).
  destruct (left_row vs None) as [Q _]; [|rewrite Ev; apply row_snoc; assumption|exact Sp|].
  { cbn [opt app]. pose proof ND as N. destruct (piece_seg _ Ip) as (l1 & l2 & Q). rewrite Q in N. apply nd_r in N. apply nd_l in N. cbn [ptoks] in N. apply nd_r in N. exact N. }
  destruct Q as (ks & E1 & E2 & E3); [reflexivity|intros Q; apply all_moved in Q; congruence|]. exists (Declares ty 0 ks). split; [|eauto]. unfold rest. cbn [emptied]. rewrite V, M. cbn [andb ptoks].
  change (keep (eaten x ps) (ty ++ flat_map vtoks vs) = ty ++ flat_map vtoks ks). rewrite keep_app, <- E1. f_equal.
  - apply keep_all. intros t It. eapply ty_not_eaten; [exact Ip|exact It].
  - apply keep_ext. intros t It. split; intros J.
    + destruct (eaten_piece _ t Ip) with (2 := J) as (c & Ic & Ie); [cbn [ptoks]; apply in_or_app; right; exact It|]. cbn [pclaims] in Ic. rewrite V in Ic. apply in_map_iff in Ic. destruct Ic as (d & <- & Id). apply in_flat_map. eauto.
    + apply in_flat_map in J. destruct J as (d & Id & J). unfold eaten, moved. apply in_flat_map. exists (key x ty, d). split; [|exact J]. apply in_flat_map. exists (Declares ty n vs). split; [exact Ip|]. cbn [pclaims]. rewrite V. apply in_map. exact Id.
Qed.

(** ** The variables declared *)
Definition stay (p : piece) : list (list bytes * list bytes) :=
  match p with Other _ _ => [] | Declares ty n vs => map (fun v => (texts x ty, texts x (w_toks v))) (if valid x ty n vs then filter (fun v => negb (moves x v)) vs else vs) end.
Definition go (p : piece) : list (list bytes * list bytes) :=
  match p with Other _ _ => [] | Declares ty n vs => if valid x ty n vs then map (fun v => (texts x ty, texts x (w_toks v))) (filter (moves x) vs) else [] end.
Lemma filter_split : forall A (f : A -> bool) l, Permutation l (filter (fun a => negb (f a)) l ++ filter f l).
Proof. intros A f l. induction l as [|a l IH]; [reflexivity|]. cbn [filter]. destruct (f a); cbn [negb app]; [apply Permutation_cons_app; exact IH|apply perm_skip; exact IH]. Qed.
Lemma declared_split : forall p, Permutation (declared x p) (stay p ++ go p).
Proof.
  intros [l cs|ty n vs]; [reflexivity|]. cbn [declared stay go]. destruct (valid x ty n vs); [|rewrite app_nil_r; reflexivity]. rewrite <- map_app. apply Permutation_map. apply filter_split.
Qed.
Lemma texts_keeps : forall y l, keeps x y -> (forall t, In t l -> In t L0) -> texts y l = texts x l.
Proof. intros y l [_ K] H. apply map_ext_in. intros t I. apply (K t). exact (ready_lt _ _ t R0 (H t I)). Qed.
Lemma map_fst_eq : forall A B C (f : A -> B) (g : A -> C) l m, map f l = map f m -> (forall a b, f a = f b -> g a = g b) -> map g l = map g m.
Proof. intros A B C f g l. induction l as [|a l IH]; intros [|b m] Q H; try discriminate; [reflexivity|]. cbn in *. injection Q as Q1 Q2. f_equal; auto. Qed.
Lemma remains_declared : forall y p q, In p ps -> keeps x y -> remains x p q -> declared y q = stay p.
Proof.
  intros y p q Ip K R. destruct p as [l cs|ty n vs]; cbn [remains] in R; [subst q; reflexivity|]. cbn [stay].
  assert (TT : texts y ty = texts x ty) by (apply texts_keeps; [exact K|intros t I; eapply piece_in; [exact Ip|cbn [ptoks]; apply in_or_app; left; exact I]]).
  assert (TV : forall v, In v vs -> texts y (w_toks v) = texts x (w_toks v)). { intros v Iv. apply texts_keeps; [exact K|]. intros t I. eapply piece_in; [exact Ip|]. cbn [ptoks]. apply in_or_app. right. apply in_flat_map. exists v. split; [exact Iv|]. apply in_or_app. left. exact I. }
  destruct (valid x ty n vs); cbn [negb] in R.
  - destruct (forallb (moves x) vs) eqn:M; [apply all_moved in M; rewrite M; subst q; reflexivity|]. destruct R as (ks & -> & Em & _). cbn [declared]. rewrite TT.
    transitivity (map (fun v => (texts x ty, texts y (w_toks v))) (filter (fun v => negb (moves x v)) vs)); [eapply map_fst_eq; [exact Em|intros a b Q; rewrite Q; reflexivity]|].
    apply map_ext_in. intros v Iv. apply filter_In in Iv. rewrite TV by apply Iv. reflexivity.
  - subst q. cbn [declared]. rewrite TT. apply map_ext_in. intros v Iv. rewrite TV by exact Iv. reflexivity.
Qed.
Definition typetext (k : bytes) : list bytes :=
  match find (fun p => match p with Declares ty n vs => valid x ty n vs && (if list_eq_dec ascii_dec (key x ty) k then true else false) | _ => false end) ps with Some (Declares ty _ _) => texts x ty | _ => [] end.
Lemma typetext_spec : matches x ps -> forall ty n vs, In (Declares ty n vs) ps -> valid x ty n vs = true -> typetext (key x ty) = texts x ty.
Proof.
  intros Ag ty n vs I V. unfold typetext. match goal with |- context [find ?f ps] => destruct (find f ps) as [p|] eqn:F end.
  - apply find_some in F. destruct F as [Ip F]. destruct p as [l cs|ty' n' vs']; [discriminate|]. apply andb_true_iff in F. destruct F as [V' K]. destruct (list_eq_dec ascii_dec (key x ty') (key x ty)) as [Q|]; [|discriminate]. eapply Ag; eassumption.
  - pose proof (find_none _ _ F _ I) as Q. cbn beta iota in Q. rewrite V in Q. destruct (list_eq_dec ascii_dec (key x ty) (key x ty)); [discriminate|contradiction].
Qed.
Definition shown (c : bytes * (var * option id)) : list bytes * list bytes := (typetext (fst c), texts x (w_toks (fst (snd c)))).
Lemma go_shown : matches x ps -> flat_map go ps = map shown (moved x ps).
Proof.
  intros Ag. unfold moved. assert (G : forall qs, incl qs ps -> flat_map go qs = map shown (flat_map (pclaims x) qs)); [|apply G; intros p I; exact I].
  induction qs as [|p qs IH]; intros H; [reflexivity|]. cbn [flat_map]. rewrite map_app, IH by (intros q I; apply H; right; exact I). f_equal. destruct p as [l cs|ty n vs]; [reflexivity|]. cbn [go pclaims].
  destruct (valid x ty n vs) eqn:V; [|reflexivity]. rewrite map_map. unfold shown. cbn [fst snd]. rewrite (typetext_spec Ag ty n vs) by (auto; apply H; left; reflexivity). rewrite <- (claims_vars x vs None), map_map. reflexivity.
Qed.
Lemma group_shown : forall y g, matches x ps -> keeps x y -> stands x y ps g -> Permutation (declared y (gdecl g)) (map shown (filter (from x (g_class g)) (moved x ps))).
Proof.
  intros y g Ag K [_ (ty & n & vs0 & Ip & V & Ek & Ft) (vs & _ & P & _ & Em) _]. cbn [gdecl declared].
  assert (TT : texts y (g_type g) = typetext (fst (g_class g))). { rewrite <- Ek, (typetext_spec Ag ty n vs0 Ip V). clear -Ft. induction Ft as [|a b l m (_ & _ & Q & _) F IH]; [reflexivity|]. cbn [texts map] in *. unfold texts in IH. rewrite IH, Q. reflexivity. }
  rewrite TT. rewrite (map_fst_eq _ _ _ w_toks (fun v => (typetext (fst (g_class g)), texts y (w_toks v))) _ _ Em) by (intros a b Q; rewrite Q; reflexivity). rewrite <- P, map_map.
  apply Permutation_refl'. apply map_ext_in. intros c Ic. apply filter_In in Ic. destruct Ic as [Ic Fc]. apply from_spec in Fc. unfold shown. rewrite <- Fc. cbn [class fst]. f_equal. apply texts_keeps; [exact K|].
  intros t It. destruct (moved_inv _ _ _ Ic) as (ty' & n' & vs' & Ip' & _ & _ & Icl). destruct (claims_in _ _ _ _ Icl) as [Iv _]. eapply piece_in; [exact Ip'|]. cbn [ptoks]. apply in_or_app. right. apply in_flat_map. eexists. split; [exact Iv|]. apply in_or_app. left. exact It.
Qed.
Lemma flat_map_perm2 : forall A B (f g : A -> list B) l, (forall a, In a l -> Permutation (f a) (g a)) -> Permutation (flat_map f l) (flat_map g l).
Proof. intros A B f g l H. induction l as [|a l IH]; [reflexivity|]. cbn [flat_map]. apply Permutation_app; [apply H; left; reflexivity|apply IH; intros b I; apply H; right; exact I]. Qed.
Lemma flat_map_split : forall A B (f g : A -> list B) l, Permutation (flat_map (fun a => f a ++ g a) l) (flat_map f l ++ flat_map g l).
Proof.
  intros A B f g l. induction l as [|a l IH]; [reflexivity|]. cbn [flat_map]. rewrite IH, <- !app_assoc. apply Permutation_app_head. rewrite !app_assoc. apply Permutation_app_tail. apply Permutation_app_comm.
Qed.
Lemma map_flat : forall A B C D (f : C -> D) (h : B -> list C) (g : A -> B) l, flat_map (fun a => map f (h (g a))) l = map f (flat_map h (map g l)).
Proof. intros A B C D f h g l. induction l as [|a l IH]; [reflexivity|]. cbn [flat_map List.map]. rewrite map_app, IH. reflexivity. Qed.
(** Each group is behind one declaration. *)
Lemma spread : forall B (f : group -> list B) gs, (forall g, In g gs -> exists k, semi_for x ps k (g_after g)) -> Permutation (flat_map (fun p => flat_map (fun g => if closes p (g_after g) then f g else []) gs) ps) (flat_map f gs).
Proof.
  intros B f gs H. induction gs as [|g gs IH]; [cbn; clear; induction ps; [reflexivity|assumption]|]. cbn [flat_map]. destruct (H g (or_introl eq_refl)) as (k & ty & n & vs & Ip & _ & _ & Ea). destruct (in_split _ _ Ip) as (r1 & r2 & Er).
  pose proof (fun p I => closes_spec p (g_after g) I) as CS. pose proof ND as N. rewrite EL in N. rewrite <- (IH ltac:(intros h I; apply H; right; exact I)).
  rewrite Er in N, CS |- *. rewrite (pull _ _ (fun p => closes p (g_after g)) (f g) (fun p => flat_map (fun g => if closes p (g_after g) then f g else []) gs) r1 (Declares ty n vs) r2); [reflexivity|cbn [closes]; rewrite Ea; apply Nat.eqb_refl|].
  intros q Iq. destruct (closes q (g_after g)) eqn:C; [|reflexivity]. exfalso. assert (Iq' : In q (r1 ++ Declares ty n vs :: r2)) by (apply in_app_or in Iq; apply in_or_app; destruct Iq; [left|right; right]; assumption).
  pose proof (CS q Iq' C) as Ta. rewrite flat_map_app in N. cbn [flat_map] in N. assert (Tb : In (g_after g) (ptoks (Declares ty n vs))) by (rewrite Ea; apply semi_in; exact Ip).
  apply IncludeProps.nodup_app in N. destruct N as (_ & N2 & N3). apply IncludeProps.nodup_app in N2. destruct N2 as (_ & _ & N2). apply in_app_or in Iq. destruct Iq as [Iq|Iq].
  - apply (N3 (g_after g)); [apply in_flat_map; eauto|apply in_or_app; left; exact Tb].
  - apply (N2 (g_after g)); [exact Tb|apply in_flat_map; eauto].
Qed.
Lemma same_variables : forall y gs, matches x ps -> Forall (fun p => psettled x p = true) ps -> keeps x y -> 
  x_toks y = flat_map (fun p => rest x ps p ++ flat_map (fun g => if closes p (g_after g) then ptoks (gdecl g) else []) gs) ps ->
  Forall (stands x y ps) gs -> NoDup (map g_class gs) -> (forall c, In c (moved x ps) -> In (class x c) (map g_class gs)) ->
  exists qs, x_toks y = flat_map ptoks qs /\ Permutation (flat_map (declared y) qs) (flat_map (declared x) ps).
Proof.
  intros y gs Ag St K Et Fs Nc Hc. rewrite Forall_forall in St, Fs.
  assert (G : forall rs, incl rs ps -> exists qs, flat_map (fun p => rest x ps p ++ flat_map (fun g => if closes p (g_after g) then ptoks (gdecl g) else []) gs) rs = flat_map ptoks qs /\
    flat_map (declared y) qs = flat_map (fun p => stay p ++ flat_map (fun g => if closes p (g_after g) then declared y (gdecl g) else []) gs) rs).
  { induction rs as [|p rs IH]; intros Hr; [exists []; split; reflexivity|]. destruct IH as (qs & E1 & E2); [intros q I; apply Hr; right; exact I|]. assert (Ip : In p ps) by (apply Hr; left; reflexivity).
    destruct (left_over p Ip (St p Ip)) as (q & Er & Rq). exists (q :: map gdecl (filter (fun g => closes p (g_after g)) gs) ++ qs).
    assert (FM : forall B (f : piece -> list B), flat_map (fun g => if closes p (g_after g) then f (gdecl g) else []) gs = flat_map f (map gdecl (filter (fun g => closes p (g_after g)) gs))).
    { intros B f. clear. induction gs as [|g gs IH]; [reflexivity|]. cbn [flat_map filter]. destruct (closes p (g_after g)); cbn [map flat_map app]; rewrite IH; reflexivity. }
    cbn [flat_map]. rewrite !flat_map_app, E1, E2, Er, (remains_declared _ _ _ Ip K Rq), !FM, <- !app_assoc. split; reflexivity. }
  destruct (G ps) as (qs & E1 & E2); [intros p I; exact I|]. exists qs. split; [congruence|]. rewrite E2, flat_map_split. rewrite (spread _ (fun g => declared y (gdecl g)) gs).
  2:{ intros g Ig. eexists. apply (st_after _ _ _ _ (Fs g Ig)). }
  rewrite (flat_map_perm2 _ _ (declared x) (fun p => stay p ++ go p)) by (intros; apply declared_split). rewrite flat_map_split. apply Permutation_app_head. rewrite (go_shown Ag).
  rewrite (flat_map_perm2 _ _ (fun g => declared y (gdecl g)) (fun g => map shown (filter (from x (g_class g)) (moved x ps))) gs) by (intros g Ig; apply group_shown; auto).
  transitivity (map shown (flat_map (fun k => filter (from x k) (moved x ps)) (map g_class gs))); [|apply Permutation_map, partition; assumption].
  rewrite (map_flat _ _ _ _ shown (fun k => filter (from x k) (moved x ps)) g_class gs). reflexivity.
Qed.
End Main.
