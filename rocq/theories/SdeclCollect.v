(** Proofs about the grouping of local variables: collecting them. *)
From Coq Require Import Permutation Sorted.
From Verif Require Import Base TokenModel UtilModel StreamModel StreamProofs TokListModel TokListProofs StaticModel ForwardProofs SdeclModel SdeclProofs SdeclLeave SdeclSpec.

Section Slots.
Variable P : id -> Prop.
Definition marks (sl : slot) : Prop := (forall a, s_kept sl = Some a -> P a) /\ (forall a, s_fallback sl = Some a -> P a).
Definition anchored (sl : slot) : Prop := anchor sl <> None.
Definition Vs (l : list slot) (m : nat) : list dvar := nth m (map s_vars l) [].

Lemma first_kept_marks : forall l k, Forall marks l -> first_kept l = Some k -> P k.
Proof. intros l k F. induction F as [|s l M F IH]; cbn; [discriminate|]. destruct (s_kept s) as [a|] eqn:Ek; [intros Q; injection Q as <-; apply (proj1 M); exact Ek|exact IH]. Qed.
Lemma place_spec : forall semi l, P semi -> Forall marks l -> Forall marks (place semi l) /\ Forall anchored (place semi l) /\ map s_vars (place semi l) = map s_vars l.
Proof.
  intros semi l Ps F. induction F as [|s l M F (I1 & I2 & I3)]; [repeat split; constructor|]. cbn [place map]. rewrite I3. destruct (s_kept s) as [k|] eqn:Ek.
  - split; [constructor; assumption|]. split; [constructor; [unfold anchored, anchor; rewrite Ek; discriminate|exact I2]|reflexivity].
  - destruct (first_kept l) as [k|] eqn:Fk.
    + split; [|split; [|reflexivity]]; constructor; auto; [|discriminate]. split; cbn; [intros a Q; injection Q as <-; exact (first_kept_marks l k F Fk)|apply (proj2 M)].
    + split; [|split; [|reflexivity]]; constructor; auto.
      * split; cbn; [discriminate|]. destruct (s_fallback s) as [f|] eqn:Ef; intros a Q; injection Q as <-; [apply (proj2 M); exact Ef|exact Ps].
      * unfold anchored, anchor. cbn. destruct (s_fallback s); discriminate.
Qed.
Lemma change_split : forall A (f : A -> A) a b t, change (length a) f (a ++ t :: b) = a ++ f t :: b.
Proof.
  intros A f a b t. unfold change. rewrite nth_error_app2, Nat.sub_diag by lia. cbn [nth_error]. f_equal.
  - rewrite firstn_app, Nat.sub_diag, firstn_all. cbn. apply app_nil_r.
  - f_equal. rewrite skipn_app, skipn_all2 by lia. replace (S (length a) - length a) with 1 by lia. reflexivity.
Qed.
Lemma change_cases : forall A (f : A -> A) n l, (exists a b t, n = length a /\ l = a ++ t :: b /\ change n f l = a ++ f t :: b) \/ length l <= n /\ change n f l = l.
Proof.
  intros A f n l. destruct (Nat.lt_ge_cases n (length l)) as [L|L].
  - left. destruct (nth_error l n) as [t|] eqn:En; [|apply nth_error_None in En; lia]. apply nth_error_split in En. destruct En as (a & b & -> & <-). exists a, b, t. split; [reflexivity|]. split; [reflexivity|]. apply change_split.
  - right. split; [exact L|]. unfold change. rewrite (proj2 (nth_error_None l n)) by exact L. reflexivity.
Qed.
Lemma kept_spec : forall semi k l, P semi -> Forall marks l -> Forall marks (change k (set_kept semi) l) /\ map s_vars (change k (set_kept semi) l) = map s_vars l.
Proof.
  intros semi k l Ps F. destruct (change_cases _ (set_kept semi) k l) as [(a & b & t & _ & -> & ->)|[_ ->]]; [|auto]. apply Forall_app in F. destruct F as [F1 F2]. inv F2. split.
  - apply Forall_app. split; [exact F1|]. constructor; [|assumption]. match goal with K : marks t |- _ => destruct K as [_ K2] end. split; cbn; [intros q Q; injection Q as <-; exact Ps|exact K2].
  - rewrite !map_app. reflexivity.
Qed.
Lemma associate_spec : forall ks semi l, P semi -> Forall marks l -> Forall marks (associate_semi ks semi l) /\ Forall anchored (associate_semi ks semi l) /\ map s_vars (associate_semi ks semi l) = map s_vars l.
Proof.
  intros ks semi l Ps F. unfold associate_semi.
  assert (K : Forall marks (fold_right (fun k l => change k (set_kept semi) l) l ks) /\ map s_vars (fold_right (fun k l => change k (set_kept semi) l) l ks) = map s_vars l).
  { induction ks as [|k ks [I1 I2]]; [auto|]. cbn. destruct (kept_spec semi k _ Ps I1) as [A B]. split; [exact A|congruence]. }
  destruct K as [K1 K2]. destruct (place_spec semi _ Ps K1) as (A & B & C). split; [exact A|]. split; [exact B|congruence].
Qed.
Lemma grow_spec : forall n l, Forall marks l -> Forall marks (grow n l) /\ (forall m, Vs (grow n l) m = Vs l m) /\ n < length (grow n l).
Proof.
  intros n l F. unfold grow. split; [|split].
  - apply Forall_app. split; [exact F|]. apply Forall_forall. intros s I. apply repeat_spec in I. subst s. split; cbn; discriminate.
  - intros m. unfold Vs. rewrite map_app. destruct (Nat.lt_ge_cases m (length (map s_vars l))) as [L|L]; [apply app_nth1; exact L|]. rewrite app_nth2, (nth_overflow (map s_vars l)) by exact L.
    generalize (m - length (map s_vars l)). clear. induction (S n - length l) as [|k IH]; intros [|j]; cbn; auto.
  - rewrite app_length, repeat_length. lia.
Qed.
(** Appending to, and changing the last of, the variables of a slot. *)
Lemma vars_change : forall f n l, n < length l -> (forall sl, s_kept (f sl) = s_kept sl /\ s_fallback (f sl) = s_fallback sl) -> Forall marks l ->
  Forall marks (change n f l) /\ (Forall anchored l -> Forall anchored (change n f l)) /\ (forall m, Vs (change n f l) m = if m =? n then s_vars (f (nth n l (Slot [] None None))) else Vs l m) /\ length (change n f l) = length l.
Proof.
  intros f n l L Hf F. destruct (change_cases _ f n l) as [(a & b & t & -> & -> & ->)|[Q _]]; [|lia]. apply Forall_app in F. destruct F as [F1 F2]. inv F2. destruct (Hf t) as [H1' H2']. split; [|split; [|split]].
  - apply Forall_app. split; [exact F1|]. constructor; [|assumption]. match goal with K : marks t |- _ => destruct K as [K1 K2] end. split; [rewrite H1'|rewrite H2']; assumption.
  - intros G. apply Forall_app in G. destruct G as [G1 G2]. inv G2. apply Forall_app. split; [exact G1|]. constructor; [|assumption]. unfold anchored, anchor in *. rewrite H1', H2'. assumption.
  - intros m. unfold Vs. rewrite !map_app, nth_middle. cbn [map]. destruct (Nat.eqb_spec m (length a)) as [->|N].
    + rewrite app_nth2 by (rewrite map_length; lia). rewrite map_length, Nat.sub_diag. reflexivity.
    + destruct (Nat.lt_ge_cases m (length (map s_vars a))) as [Q|Q]; [rewrite !app_nth1 by exact Q; reflexivity|]. rewrite !app_nth2 by exact Q. rewrite map_length in *. destruct (m - length a) as [|j] eqn:Ej; [lia|reflexivity].
  - rewrite !app_length. reflexivity.
Qed.
End Slots.

Section Collect.
Variable E : id -> nat.
Variable x : lex.
Hypothesis R0 : ready E x.
Notation L0 := (x_toks x).
Notation ND := (ready_nodup _ _ R0).

Lemma clear_bare : forall t, clear x t = true <-> bare (x_heap x) t.
Proof.
  intros t. unfold clear, bare. rewrite andb_true_iff. split; intros [A B]; split.
  - destruct (n_pre (x_heap x t)); [reflexivity|discriminate].
  - unfold comments. induction (n_suf (x_heap x t)) as [|s l IH]; [reflexivity|]. cbn [forallb filter] in *. apply andb_true_iff in B. destruct B as [B1 B2]. unfold comment at 1. destruct (ttype_eqb _ _); [discriminate|auto].
  - rewrite A. reflexivity.
  - unfold comments in B. induction (n_suf (x_heap x t)) as [|s l IH]; [reflexivity|]. cbn [forallb filter] in *. unfold comment at 1 in B. destruct (ttype_eqb _ _); [discriminate|auto].
Qed.
Lemma clear_moveable : forall t, In t L0 -> is_moveable (x_heap x) t = clear x t.
Proof.
  intros t I. pose proof (moveable_bare x t (re_tidy _ _ R0) I) as H. rewrite <- clear_bare in H. destruct (is_moveable (x_heap x) t), (clear x t); try reflexivity; exfalso; destruct H as [H1 H2]; [discriminate H1|discriminate H2]; reflexivity.
Qed.

Definition may (t : id) : bool := (ttype_eqb (tyof x t) T_STAR || ttype_eqb (tyof x t) T_IDENT) && clear x t.
Lemma classify_spec : forall l a b c e, (forall t, In t l -> In t L0) ->
  fst (classify_loop x l a b c e) = (negb e && forallb may l && ((0 <? a) || existsb (fun t => ttype_eqb (tyof x t) T_IDENT) l)) /\
  (fst (classify_loop x l a b c e) = true -> c = 0 -> snd (classify_loop x l a b c e) = b + length (filter (fun t => ttype_eqb (tyof x t) T_STAR) l)).
Proof.
  induction l as [|t l IH]; intros a b c e H.
  - cbn. split; [destruct e, a; reflexivity|]. intros _ ->. cbn. lia.
  - assert (Hl : forall u, In u l -> In u L0) by (intros u I; apply H; right; exact I). assert (It : In t L0) by (apply H; left; reflexivity).
    cbn [classify_loop forallb existsb filter]. unfold may at 1. rewrite <- (clear_moveable t It). destruct (ttype_eqb (tyof x t) T_STAR) eqn:E1.
    + destruct (IH a (S b) c (e || negb (is_moveable (x_heap x) t)) Hl) as [I1 I2]. assert (E2 : ttype_eqb (tyof x t) T_IDENT = false) by (destruct (tyof x t); try discriminate; reflexivity). rewrite E2. split.
      * rewrite I1. cbn. destruct e, (is_moveable (x_heap x) t); cbn; reflexivity.
      * intros A B. rewrite I2 by assumption. cbn [length]. lia.
    + destruct (ttype_eqb (tyof x t) T_IDENT) eqn:E2.
      * destruct (IH (S a) b c (e || negb (is_moveable (x_heap x) t)) Hl) as [I1 I2]. split; [|exact I2]. rewrite I1. cbn. destruct e, (is_moveable (x_heap x) t); cbn; rewrite ?orb_true_r; reflexivity.
      * assert (Z : forall a b c, fst (classify_loop x l a b c true) = false) by (intros a' b' c'; destruct (IH a' b' c' true Hl) as [I1 _]; rewrite I1; reflexivity).
        cbn [orb andb]. destruct (ttype_eqb (tyof x t) T_LSQUARE); [rewrite Z; split; [destruct e; reflexivity|discriminate]|].
        destruct (ttype_eqb (tyof x t) T_EQUAL); [cbn; split; [destruct e; reflexivity|discriminate]|rewrite Z; split; [destruct e; reflexivity|discriminate]].
Qed.

Definition dv (c : var * option id) : dvar := DVar (hd 0 (w_toks (fst c)), last (w_toks (fst c)) 0) (name x (fst c)) (snd c).
Lemma seg_in : forall l1 w l2 i, L0 = l1 ++ w ++ l2 -> In i w -> In i L0.
Proof. intros l1 w l2 i -> I. apply in_or_app. right. apply in_or_app. left. exact I. Qed.
Lemma over_list : forall w l1 l2, w <> [] -> L0 = l1 ++ w ++ l2 -> over x (hd 0 w, last w 0) = w.
Proof. intros [|t ts] l1 l2 NE EL; [contradiction|]. cbn [hd]. rewrite last_cons_snoc. eapply over_seg; [exact R0|exact EL]. Qed.
Lemma prev_mid : forall l1 w t l2, L0 = l1 ++ w ++ t :: l2 -> w <> [] -> prev_of L0 t = Some (last w 0).
Proof.
  intros l1 w t l2 EL NE. pose proof ND as N. rewrite EL in *. rewrite app_assoc in *. unfold prev_of. rewrite prev_from_split by (apply (nodup_split _ _ _ N)).
  destruct w as [|u w] using rev_ind; [contradiction|]. rewrite app_assoc, rev_app_distr, last_last. reflexivity.
Qed.
Lemma next_mid : forall l1 t u l2, L0 = l1 ++ t :: u :: l2 -> next_of L0 t = Some u.
Proof. intros l1 t u l2 EL. pose proof ND as N. rewrite EL in *. rewrite next_split by (apply (nodup_split _ _ _ N)). reflexivity. Qed.

Lemma moves_toks : forall v, moves x v = true -> w_toks v <> [].
Proof. intros v M N. unfold moves in M. rewrite N in M. cbn in M. discriminate. Qed.
Lemma find_hd : forall (f : id -> bool) l, existsb f l = true -> find f l = Some (hd 0 (filter f l)).
Proof. intros f l. induction l as [|t l IH]; cbn; [discriminate|]. destruct (f t); [reflexivity|exact IH]. Qed.

(** One variable: what [var_end] does. *)
Lemma var_end_spec : forall (P : id -> Prop) v l1 l2 b pend em ks r nk T1 tr slots str T2, 
  (L0 = l1 ++ vtoks v ++ l2) -> (w_toks v <> [] /\ b = hd 0 (w_toks v) \/ w_toks v = [] /\ b = w_delim v /\ l1 <> []) ->
  Forall (marks P) slots -> (tyof x (w_delim v) = T_SEMI -> P (w_delim v)) -> tyof x (w_delim v) <> T_STAR -> tyof x (w_delim v) <> T_IDENT ->
  let semi := ttype_eqb (tyof x (w_delim v)) T_SEMI in
  exists ks' slots', var_end x (w_delim v) (Sd (em ++ [Decl ks r nk]) (T1 ++ DType tr slots str :: T2) (Some (length T1)) (Some (b, pend))) =
    Some (if moves x v then Some (stars x v) else None,
          Sd (em ++ [Decl ks' r (if moves x v then nk else S nk)]) (T1 ++ DType tr slots' str :: T2) (Some (length T1)) (Some (b, pend))) /\
    (semi = true -> ks' = []) /\ Forall (marks P) slots' /\ (semi = true -> Forall anchored slots') /\
    (forall m, Vs slots' m = Vs slots m ++ (if moves x v && (m =? stars x v) then [dv (v, pend)] else [])) /\ (moves x v = true -> stars x v < length slots').
Proof.
  intros P v l1 l2 b pend em ks r nk T1 tr slots str T2 EL Hb Mk Ps D1 D2 semi. unfold var_end. cbn [c_empty c_dv c_dt c_types]. rewrite rev_app_distr. cbn [rev app hd_error].
  assert (Ie : exists e, prev_of L0 (w_delim v) = Some e /\ (w_toks v <> [] -> e = last (w_toks v) 0)).
  { unfold vtoks in EL. rewrite <- app_assoc in EL. destruct Hb as [[NE _]|[EW [_ NE]]].
    - exists (last (w_toks v) 0). split; [|auto]. eapply prev_mid; eauto.
    - rewrite EW in EL. exists (last l1 0). split; [|intros Q; congruence]. apply (prev_mid [] l1 (w_delim v) l2); [rewrite EL; reflexivity|exact NE]. }
  destruct Ie as (e & -> & Ee). rewrite nth_error_app2, Nat.sub_diag by lia. cbn [nth_error t_slots d_slots d_range d_nkeep].
  assert (ID : In (w_delim v) L0) by (eapply seg_in; [exact EL|unfold vtoks; apply in_or_app; right; left; reflexivity]).
  rewrite (clear_moveable _ ID).
  assert (C : (fst (classify x (b, e)) && clear x (w_delim v)) = moves x v /\ (moves x v = true -> snd (classify x (b, e)) = stars x v)).
  { unfold classify. destruct Hb as [[NE ->]|[EW [-> NE]]].
    - rewrite (Ee NE). assert (OV : over x (hd 0 (w_toks v), last (w_toks v) 0) = w_toks v) by (eapply over_list; [exact NE|]; unfold vtoks in EL; rewrite <- app_assoc in EL; exact EL). rewrite OV.
      destruct (classify_spec (w_toks v) 0 0 0 false) as [A B]; [intros t I; eapply seg_in; [exact EL|]; unfold vtoks; apply in_or_app; left; exact I|].
      assert (Q : (fst (classify_loop x (w_toks v) 0 0 0 false) && clear x (w_delim v)) = moves x v) by (rewrite A; reflexivity).
      split; [exact Q|]. intros M. rewrite <- Q in M. apply andb_true_iff in M. rewrite B by (tauto || reflexivity). reflexivity.
    - assert (M : moves x v = false) by (unfold moves; rewrite EW; reflexivity). rewrite M. split; [|discriminate].
      unfold over. cbn [fst snd]. destruct (length L0) as [|f] eqn:El; [destruct L0; [destruct ID|discriminate]|]. cbn [range_list].
      set (rest := if w_delim v =? e then [] else match next_of L0 (w_delim v) with Some u => range_list f L0 e u | None => [] end).
      assert (Hr : forall t, In t (w_delim v :: rest) -> In t L0).
      { assert (K : forall f e t, In t L0 -> forall u, In u (range_list f L0 e t) -> In u L0).
        { clear. induction f as [|f IH]; intros e t It u Iu; [destruct Iu|]. cbn [range_list] in Iu. destruct Iu as [<-|Iu]; [exact It|]. destruct (t =? e); [destruct Iu|]. destruct (next_of L0 t) as [w|] eqn:Ew; [|destruct Iu]. eapply IH; [|exact Iu]. destruct (next_inv _ _ _ Ew) as (a & q & ->). apply in_or_app. right. right. left. reflexivity. }
        intros t I. apply (K (S f) e (w_delim v) ID). cbn [range_list]. exact I. }
      destruct (classify_spec (w_delim v :: rest) 0 0 0 false Hr) as [A _]. rewrite A. cbn [forallb]. unfold may at 1.
      replace (ttype_eqb (tyof x (w_delim v)) T_STAR) with false by (destruct (tyof x (w_delim v)); try reflexivity; exfalso; apply D1; reflexivity).
      replace (ttype_eqb (tyof x (w_delim v)) T_IDENT) with false by (destruct (tyof x (w_delim v)); try reflexivity; exfalso; apply D2; reflexivity). reflexivity. }
  destruct (classify x (b, e)) as [ok n]. cbn [fst snd] in C. destruct C as [C1 C2].
  replace (negb ok || negb (clear x (w_delim v))) with (negb (moves x v)) by (rewrite <- C1; destruct ok, (clear x (w_delim v)); reflexivity).
  rewrite removelast_last. fold semi.
  destruct (grow_spec P n slots Mk) as (G1 & G2 & G3). set (ks1 := if negb (moves x v) then ks ++ [n] else ks).
  assert (S2 : exists sl2, (if semi then associate_semi ks1 (w_delim v) (grow n slots) else grow n slots) = sl2 /\ Forall (marks P) sl2 /\ (semi = true -> Forall anchored sl2) /\ (forall m, Vs sl2 m = Vs slots m) /\ n < length sl2).
  { unfold semi in *. destruct (ttype_eqb (tyof x (w_delim v)) T_SEMI) eqn:Es.
    - destruct (associate_spec P ks1 (w_delim v) (grow n slots)) as (A & B & C); [apply Ps; destruct (tyof x (w_delim v)); try discriminate; reflexivity|exact G1|]. eexists. split; [reflexivity|]. split; [exact A|]. split; [auto|]. split.
      + intros m. unfold Vs in *. rewrite C. apply G2.
      + apply (f_equal (@length _)) in C. rewrite !map_length in C. lia.
    - eexists. split; [reflexivity|]. split; [exact G1|]. split; [discriminate|]. split; [exact G2|exact G3]. }
  destruct S2 as (sl2 & -> & M2 & A2 & V2 & L2).
  destruct (moves x v) eqn:Mv; cbn [negb] in *.
  - assert (NE : w_toks v <> []) by (apply moves_toks; exact Mv). destruct Hb as [[_ ->]|[EW _]]; [|contradiction].
    assert (OV : over x (hd 0 (w_toks v), e) = w_toks v) by (rewrite (Ee NE); eapply over_list; [exact NE|]; unfold vtoks in EL; rewrite <- app_assoc in EL; exact EL). rewrite OV.
    rewrite find_hd by (unfold moves in Mv; apply andb_true_iff in Mv; destruct Mv as [Mv _]; apply andb_true_iff in Mv; apply Mv).
    rewrite change_split. cbn [t_range t_str]. rewrite (C2 eq_refl) in *.
    destruct (vars_change P (fun sl => Slot (s_vars sl ++ [DVar (hd 0 (w_toks v), e) (hd 0 (filter (fun t => ttype_eqb (tyof x t) T_IDENT) (w_toks v))) pend]) (s_kept sl) (s_fallback sl)) (stars x v) sl2 L2) as (B1 & B2 & B3 & B4); [intros; split; reflexivity|exact M2|].
    exists (if semi then [] else ks), (change (stars x v) (fun sl => Slot (s_vars sl ++ [DVar (hd 0 (w_toks v), e) (hd 0 (filter (fun t => ttype_eqb (tyof x t) T_IDENT) (w_toks v))) pend]) (s_kept sl) (s_fallback sl)) sl2).
    split; [reflexivity|]. split; [intros ->; reflexivity|]. split; [exact B1|]. split; [intros S; apply B2, A2, S|]. split; [|intros _; rewrite B4; exact L2].
    intros m. rewrite B3. destruct (Nat.eqb_spec m (stars x v)) as [->|N]; cbn [andb]; [|rewrite app_nil_r; apply V2]. cbn [s_vars]. rewrite <- V2. f_equal; [|rewrite (Ee NE); reflexivity].
    unfold Vs. rewrite (nth_indep _ _ (s_vars (Slot [] None None))) by (rewrite map_length; exact L2). rewrite map_nth. reflexivity.
  - rewrite change_split. cbn [t_range t_str]. eexists. exists sl2. split; [reflexivity|]. split; [intros ->; reflexivity|]. split; [exact M2|]. split; [exact A2|]. split; [intros m; cbn [andb]; rewrite app_nil_r; apply V2|discriminate].
Qed.

Lemma last_delim_snoc : forall c l a, last_delim c (l ++ [a]) = l ++ [DVar (v_range a) (v_sort a) (Some c)].
Proof. intros c l a. unfold last_delim. rewrite removelast_last, rev_app_distr. reflexivity. Qed.
Lemma vtoks_hd : forall vs l, vs <> [] -> exists t r, flat_map vtoks vs ++ l = t :: r /\ hd 0 (flat_map vtoks vs) = t.
Proof. intros [|v vs] l NE; [contradiction|]. cbn [flat_map]. unfold vtoks at 1 3. destruct (w_toks v) as [|t w]; cbn; eauto. Qed.

Lemma run_vars : forall (P : id -> Prop) us v l1 l2 b pend em ks r nk T1 tr slots str T2, let vs := us ++ [v] in
  L0 = l1 ++ flat_map vtoks vs ++ l2 -> l1 <> [] -> tyof x (w_delim v) = T_SEMI -> Forall (fun u => tyof x (w_delim u) = T_COMMA) us ->
  (us = [] \/ Forall (fun u => w_toks u <> []) vs) -> b = hd 0 (flat_map vtoks vs) -> Forall (marks P) slots -> P (w_delim v) ->
  exists slots', collect x (map (delim_call x) vs) (Sd (em ++ [Decl ks r nk]) (T1 ++ DType tr slots str :: T2) (Some (length T1)) (Some (b, pend))) =
      Some (Sd (em ++ if (nk =? 0) && forallb (moves x) vs then [Decl [] (fst r, w_delim v) 0] else []) (T1 ++ DType tr slots' str :: T2) None None) /\
    Forall (marks P) slots' /\ Forall anchored slots' /\ forall m, Vs slots' m = Vs slots m ++ map dv (filter (fun c => stars x (fst c) =? m) (claims x pend vs)).
Proof.
  intros P us v. induction us as [|u us IH]; intros l1 l2 b pend em ks r nk T1 tr slots str T2 vs EL N1 Ts Fc Hn Hb Mk Pv; subst vs.
  - cbn [app flat_map] in EL. rewrite app_nil_r in EL. cbn [app map collect step]. unfold delim_call. rewrite Ts. change (ttype_eqb T_SEMI T_SEMI) with true. cbn iota. cbn [step]. unfold sd_semi. cbn [c_dv].
    destruct (var_end_spec P v l1 l2 b pend em ks r nk T1 tr slots str T2 EL) as (ks' & sl & Ev & Ek & M & A & V & L); try (rewrite Ts; discriminate); [|exact Mk|auto|].
    { cbn [app flat_map] in Hb. rewrite app_nil_r in Hb. unfold vtoks in Hb. destruct (w_toks v) as [|t w]; [right; auto|left; split; [discriminate|exact Hb]]. }
    rewrite Ev. cbn [c_empty c_types]. rewrite rev_app_distr. cbn [rev app hd_error]. rewrite removelast_last. cbn [d_nkeep d_slots d_range].
    rewrite Ts in *. rewrite (Ek eq_refl). exists sl. split; [|split; [exact M|split; [exact (A eq_refl)|]]].
    + do 3 f_equal. cbn [forallb]. destruct (moves x v); cbn; [rewrite !andb_true_r; reflexivity|rewrite andb_false_r; reflexivity].
    + intros m. rewrite V. f_equal. cbn [claims]. destruct (moves x v); [|reflexivity]. cbn [filter fst]. rewrite Nat.eqb_sym. destruct (stars x v =? m); reflexivity.
  - pose proof (Forall_inv Fc) as Tu. apply Forall_inv_tail in Fc. destruct Hn as [Hn|Hn]; [discriminate|]. cbn [app] in Hn. pose proof (Forall_inv Hn) as Nu. apply Forall_inv_tail in Hn.
    cbn [app flat_map] in EL, Hb. cbn [app map collect]. unfold delim_call at 1. rewrite Tu. change (ttype_eqb T_COMMA T_SEMI) with false. cbn iota. cbn [step]. unfold sd_comma. cbn [c_dv].
    assert (EL1 : L0 = l1 ++ vtoks u ++ flat_map vtoks (us ++ [v]) ++ l2) by (rewrite EL, <- app_assoc; reflexivity).
    destruct (var_end_spec P u l1 (flat_map vtoks (us ++ [v]) ++ l2) b pend em ks r nk T1 tr slots str T2 EL1) as (ks' & sl & Ev & Ek & M & A & V & L); try (rewrite Tu; discriminate); [|exact Mk|].
    { left. split; [exact Nu|]. rewrite Hb. unfold vtoks at 1. cbn beta in Nu. destruct (w_toks u); [contradiction Nu; reflexivity|reflexivity]. }
    rewrite Ev. destruct (vtoks_hd (us ++ [v]) l2) as (t & q & Eq & Eh); [destruct us; discriminate|].
    assert (NX : next_of L0 (w_delim u) = Some (hd 0 (flat_map vtoks (us ++ [v])))).
    { rewrite Eh. apply (next_mid (l1 ++ w_toks u) (w_delim u) t q). rewrite EL1, Eq. unfold vtoks. rewrite <- !app_assoc. reflexivity. }
    assert (IU : In (w_delim u) L0) by (eapply seg_in; [exact EL1|unfold vtoks; apply in_or_app; right; left; reflexivity]).
    rewrite NX, (clear_moveable _ IU). cbn [option_map c_dt c_types c_empty].
    assert (EL2 : L0 = (l1 ++ vtoks u) ++ flat_map vtoks (us ++ [v]) ++ l2) by (rewrite EL1, <- app_assoc; reflexivity).
    assert (N2 : l1 ++ vtoks u <> []) by (destruct l1; [contradiction|discriminate]).
    assert (FM : forall k, ((if moves x u then nk else S nk) =? 0) && forallb (moves x) (us ++ [v]) = k -> (nk =? 0) && forallb (moves x) (u :: (us ++ [v])) = k).
    { intros k <-. cbn [app forallb]. destruct (moves x u); [reflexivity|]. rewrite andb_false_r. reflexivity. }
    assert (CL : claims x pend ((u :: us) ++ [v]) = if moves x u then match pend with None => (u, Some (w_delim u)) :: claims x None (us ++ [v]) | Some c => (u, Some c) :: claims x (Some (w_delim u)) (us ++ [v]) end else claims x (if clear x (w_delim u) then Some (w_delim u) else None) (us ++ [v])).
    { cbn [app claims]. destruct (us ++ [v]) as [|w ws] eqn:Ew; [destruct us; discriminate|]. reflexivity. }
    cbn [app] in CL. rewrite CL. clear CL.
    assert (HNX : us = [] \/ Forall (fun u => w_toks u <> []) (us ++ [v])) by (right; exact Hn).
    destruct (moves x u) eqn:Mu; [destruct pend as [c|]|].
    + assert (Cu : clear x (w_delim u) = true) by (unfold moves in Mu; apply andb_true_iff in Mu; apply Mu). rewrite Cu.
      destruct (IH (l1 ++ vtoks u) l2 (hd 0 (flat_map vtoks (us ++ [v]))) (Some (w_delim u)) em ks' r nk T1 tr sl str T2 EL2 N2 Ts Fc HNX eq_refl M Pv) as (sl' & E' & M' & A' & V').
      exists sl'. split; [|split; [exact M'|split; [exact A'|]]]; [rewrite E'; do 3 f_equal; rewrite (FM _ eq_refl); reflexivity|].
      intros m. rewrite V', V. cbn [filter fst andb map]. rewrite (Nat.eqb_sym m). destruct (stars x u =? m); cbn [map]; rewrite <- app_assoc; reflexivity.
    + rewrite change_split. cbn [t_range t_str t_slots].
      destruct (vars_change P (fun s => Slot (last_delim (w_delim u) (s_vars s)) (s_kept s) (s_fallback s)) (stars x u) sl (L eq_refl)) as (B1 & B2 & B3 & B4); [intros; split; reflexivity|exact M|].
      destruct (IH (l1 ++ vtoks u) l2 (hd 0 (flat_map vtoks (us ++ [v]))) None em ks' r nk T1 tr _ str T2 EL2 N2 Ts Fc HNX eq_refl B1 Pv) as (sl' & E' & M' & A' & V').
      exists sl'. split; [|split; [exact M'|split; [exact A'|]]]; [rewrite E'; do 3 f_equal; rewrite (FM _ eq_refl); reflexivity|].
      intros m. rewrite V', B3. cbn [filter fst]. rewrite (Nat.eqb_sym m). destruct (Nat.eqb_spec (stars x u) m) as [<-|Nm]; cbn [map].
      * cbn [s_vars].
        assert (Q : s_vars (nth (stars x u) sl (Slot [] None None)) = Vs slots (stars x u) ++ [dv (u, None)]).
        { rewrite <- (V (stars x u)) || idtac. transitivity (Vs sl (stars x u)); [unfold Vs; rewrite (nth_indep _ _ (s_vars (Slot [] None None))) by (rewrite map_length; exact (L eq_refl)); rewrite map_nth; reflexivity|]. rewrite V. cbn [andb]. rewrite Nat.eqb_refl. reflexivity. }
        rewrite Q, last_delim_snoc, <- app_assoc. reflexivity.
      * rewrite V. cbn [andb]. rewrite (proj2 (Nat.eqb_neq m (stars x u))) by congruence. rewrite app_nil_r. reflexivity.
    + destruct (IH (l1 ++ vtoks u) l2 (hd 0 (flat_map vtoks (us ++ [v]))) (if clear x (w_delim u) then Some (w_delim u) else None) em ks' r (S nk) T1 tr sl str T2 EL2 N2 Ts Fc HNX eq_refl M Pv) as (sl' & E' & M' & A' & V').
      exists sl'. split; [|split; [exact M'|split; [exact A'|]]]; [rewrite E'; do 3 f_equal; rewrite (FM _ eq_refl); reflexivity|].
      intros m. rewrite V', V. cbn [andb]. rewrite app_nil_r. reflexivity.
Qed.

(** The type of a declaration. *)
Lemma ty_neq : forall a b, a <> b -> ttype_eqb a b = false.
Proof. intros a b. apply ttype_eqb_neq. Qed.
Lemma nd_r : forall (A : Type) (a b : list A), NoDup (a ++ b) -> NoDup b.
Proof. induction a as [|t a IH]; intros b N; [exact N|]. inv N. auto. Qed.
Lemma nd_l : forall (A : Type) (a b : list A), NoDup (a ++ b) -> NoDup a.
Proof. induction a as [|t a IH]; intros b N; [constructor|]. inv N. constructor; [|eauto]. intros I. match goal with K : ~ _ |- _ => apply K end. apply in_or_app. left. exact I. Qed.
Lemma reported_ne : forall ty n vs, ty <> [] -> reported ty n vs <> [] /\ hd 0 (reported ty n vs) = hd 0 ty.
Proof. intros [|t ty] n vs NE; [contradiction|]. unfold reported. cbn. split; [discriminate|reflexivity]. Qed.
Lemma over_reported : forall ty n vs l1 l2, ty <> [] -> L0 = l1 ++ ptoks (Declares ty n vs) ++ l2 -> over x (hd 0 ty, last (reported ty n vs) 0) = reported ty n vs.
Proof.
  intros ty n vs l1 l2 NE EL. destruct (reported_ne ty n vs NE) as [Nr Hr]. rewrite <- Hr. apply (over_list _ l1 (skipn n (flat_map vtoks vs) ++ l2)); [exact Nr|].
  rewrite EL. cbn [ptoks]. unfold reported. rewrite <- (firstn_skipn n (flat_map vtoks vs)) at 1. rewrite <- !app_assoc. reflexivity.
Qed.
Lemma last_ty_next : forall ty n vs l1 l2, ty <> [] -> vs <> [] -> L0 = l1 ++ ptoks (Declares ty n vs) ++ l2 -> next_of L0 (last ty 0) = Some (hd 0 (flat_map vtoks vs)).
Proof.
  intros ty n vs l1 l2 NE NV EL. destruct ty as [|t ty] using rev_ind; [contradiction|]. rewrite last_last. destruct (vtoks_hd vs l2 NV) as (u & r & Eq & ->). apply (next_mid (l1 ++ ty) t u r).
  rewrite EL. cbn [ptoks]. rewrite <- !app_assoc, Eq. reflexivity.
Qed.
Lemma valid_spec : forall ty n vs l1 l2, called x (Declares ty n vs) -> L0 = l1 ++ ptoks (Declares ty n vs) ++ l2 ->
  is_type_valid x (hd 0 ty) (last (reported ty n vs) 0) = valid x ty n vs.
Proof.
  intros ty n vs l1 l2 C EL. destruct C as (NE & Ns & Ft & Fs & Nb & us & v & Ev & _). unfold is_type_valid, valid. rewrite (over_reported _ _ _ _ _ NE EL).
  assert (ID : (hd 0 ty =? last (reported ty n vs) 0) && (is_decl x (hd 0 ty) T_STRUCT || is_decl x (hd 0 ty) T_UNION) = false).
  { destruct (Nat.eqb_spec (hd 0 ty) (last (reported ty n vs) 0)) as [Q|Q]; [|reflexivity]. cbn [andb].
    assert (E1 : last ty 0 = hd 0 ty).
    { pose proof ND as N. assert (NR : NoDup (reported ty n vs)).
      { rewrite EL in N. apply nd_r in N. apply nd_l in N. cbn [ptoks] in N. unfold reported. rewrite <- (firstn_skipn n (flat_map vtoks vs)), app_assoc in N. apply nd_l in N. exact N. }
      unfold reported in Q, NR. destruct ty as [|t ty]; [contradiction|]. cbn [hd] in *. destruct ty as [|u ty]; [reflexivity|]. exfalso.
      cbn [app] in NR, Q. remember (u :: ty ++ firstn n (flat_map vtoks vs)) as w eqn:Ew. inversion NR as [|? ? NI _ Eq]. apply NI. rewrite Q. assert (NW : w <> []) by (rewrite Ew; discriminate).
      rewrite (app_removelast_last 0 NW) at 2. apply in_or_app. right. left. destruct w; [contradiction|reflexivity]. }
    unfold is_decl. rewrite <- E1. rewrite (last_ty_next _ n vs l1 l2 NE); [|rewrite Ev; destruct us; discriminate|exact EL].
    rewrite (ty_neq _ _ Nb). reflexivity. }
  rewrite ID. assert (G : forall l, (forall t, In t l -> In t L0) -> forallb (fun t => is_moveable (x_heap x) t && negb (ttype_eqb (tyof x t) T_LPAREN) && negb (ttype_eqb (tyof x t) T_LBRACE)) l = forallb (fun t => clear x t && negb (ttype_eqb (tyof x t) T_LPAREN) && negb (ttype_eqb (tyof x t) T_LBRACE)) l).
  { induction l as [|t l IH]; intros H; [reflexivity|]. cbn [forallb]. rewrite IH by (intros u I; apply H; right; exact I). rewrite clear_moveable by (apply H; left; reflexivity). reflexivity. }
  apply G. intros t I. rewrite EL. apply in_or_app. right. apply in_or_app. left. cbn [ptoks]. unfold reported in I. apply in_app_or in I. apply in_or_app. destruct I as [I|I]; [left; exact I|right].
  rewrite <- (firstn_skipn n (flat_map vtoks vs)). apply in_or_app. left. exact I.
Qed.
Lemma star_not : forall t, tyof x t = T_STAR -> negb (is_star x t) = false.
Proof. intros t H. unfold is_star. rewrite H. reflexivity. Qed.
Lemma filter_stars : forall l, Forall (fun t => tyof x t = T_STAR) l -> filter (fun t => negb (is_star x t)) l = [].
Proof. intros l F. induction F as [|t l H F IH]; [reflexivity|]. cbn [filter]. rewrite (star_not _ H). exact IH. Qed.
Lemma reported_key : forall ty n vs, Forall (fun t => tyof x t = T_STAR) (firstn n (flat_map vtoks vs)) ->
  filter (fun t => negb (is_star x t)) (reported ty n vs) = filter (fun t => negb (is_star x t)) ty.
Proof. intros. unfold reported. rewrite filter_app, (filter_stars (firstn _ _)) by assumption. apply app_nil_r. Qed.
Lemma back_spec : forall ss ty l1 l2 fuel, ty <> [] -> tyof x (last ty 0) <> T_STAR -> Forall (fun t => tyof x t = T_STAR) ss -> L0 = l1 ++ (ty ++ ss) ++ l2 -> length ss < fuel ->
  back_stars fuel x (last (ty ++ ss) 0) = Some (last ty 0).
Proof.
  intros ss. induction ss as [|s ss IH] using rev_ind; intros ty l1 l2 fuel NE Nt F EL Lf; (destruct fuel as [|f]; [cbn in Lf; lia|]).
  - rewrite app_nil_r. cbn [back_stars]. unfold is_star. rewrite (ty_neq _ _ Nt). reflexivity.
  - apply Forall_app in F. destruct F as [F1 F2]. apply Forall_inv in F2. rewrite app_assoc, last_last. cbn [back_stars]. unfold is_star. rewrite F2. change (ttype_eqb T_STAR T_STAR) with true. cbn iota.
    assert (EL1 : L0 = l1 ++ (ty ++ ss) ++ s :: l2) by (rewrite EL, <- !app_assoc; reflexivity). clear EL. rename EL1 into EL. rewrite (prev_mid l1 (ty ++ ss) s l2 EL) by (destruct ty; [contradiction|discriminate]).
    apply (IH ty l1 (s :: l2)); try assumption. rewrite app_length in Lf. cbn in Lf. lia.
Qed.
Lemma type_find_spec : forall str l i, match type_find str l i with
  | Some j => exists T1 t T2, l = T1 ++ t :: T2 /\ j = i + length T1 /\ t_str t = str
  | None => ~ In str (map t_str l) end.
Proof.
  intros str l. induction l as [|t l IH]; intros i; cbn [type_find]; [intros []|]. destruct (list_eq_dec ascii_dec (t_str t) str) as [Q|Q].
  - exists [], t, l. cbn. split; [reflexivity|]. split; [lia|exact Q].
  - specialize (IH (S i)). destruct (type_find str l (S i)) as [j|].
    + destruct IH as (T1 & u & T2 & -> & -> & Hs). exists (t :: T1), u, T2. cbn. split; [reflexivity|]. split; [lia|exact Hs].
    + cbn. intros [K|K]; auto.
Qed.
Lemma sd_type_spec : forall ty n vs l1 l2 s, called x (Declares ty n vs) -> L0 = l1 ++ ptoks (Declares ty n vs) ++ l2 ->
  if valid x ty n vs then
    exists T1 tr slots T2, sd_type x (hd 0 ty) (last (reported ty n vs) 0) s =
        Some (Sd (c_empty s ++ [Decl [] (hd 0 ty, last (reported ty n vs) 0) 0]) (T1 ++ DType tr slots (key x ty) :: T2) (Some (length T1)) (Some (hd 0 (flat_map vtoks vs), None))) /\
      (c_types s = T1 ++ DType tr slots (key x ty) :: T2 \/ T2 = [] /\ c_types s = T1 /\ slots = [] /\ tr = (hd 0 ty, last ty 0) /\ ~ In (key x ty) (map t_str T1))
  else sd_type x (hd 0 ty) (last (reported ty n vs) 0) s = Some s.
Proof.
  intros ty n vs l1 l2 s C EL. pose proof (valid_spec _ _ _ _ _ C EL) as V. unfold sd_type. rewrite V. destruct (valid x ty n vs); [|reflexivity]. cbn [negb].
  destruct C as (NE & Ns & Ft & Fs & Nb & us & v & Ev & _).
  assert (NV : vs <> []) by (rewrite Ev; destruct us; discriminate).
  assert (OV := over_reported _ _ _ _ _ NE EL). assert (RK := reported_key ty n vs Fs).
  assert (BK : back_stars (S (length L0)) x (last (reported ty n vs) 0) = Some (last ty 0)).
  { unfold reported. apply (back_spec _ _ l1 (skipn n (flat_map vtoks vs) ++ l2)); try assumption.
    - rewrite EL. cbn [ptoks]. rewrite <- (firstn_skipn n (flat_map vtoks vs)) at 1. rewrite <- !app_assoc. reflexivity.
    - assert (length (firstn n (flat_map vtoks vs)) <= length (flat_map vtoks vs)) by (rewrite firstn_length; lia). rewrite EL. cbn [ptoks]. rewrite !app_length. lia. }
  assert (ST : range_str x (hd 0 ty, last (reported ty n vs) 0) = key x ty) by (unfold range_str; rewrite OV, RK; reflexivity).
  unfold type_create. rewrite ST. pose proof (type_find_spec (key x ty) (c_types s) 0) as TF. destruct (type_find (key x ty) (c_types s) 0) as [j|].
  - destruct TF as (T1 & [tr slots str] & T2 & Et & -> & Es). cbn in Es. subst str. exists T1, tr, slots, T2. rewrite BK, (last_ty_next _ n vs l1 l2 NE NV EL), Et. cbn [option_map Nat.add]. split; [reflexivity|]. left. reflexivity.
  - rewrite OV, RK. assert (HL : hd_error (rev (filter (fun t => negb (is_star x t)) ty)) = Some (last ty 0)).
    { destruct ty as [|t ty] using rev_ind; [contradiction|]. rewrite last_last in *. rewrite filter_app. cbn [filter]. unfold is_star at 2. rewrite (ty_neq _ _ Ns). cbn [negb]. rewrite rev_app_distr. reflexivity. }
    rewrite HL. exists (c_types s), (hd 0 ty, last ty 0), [], []. rewrite BK, (last_ty_next _ n vs l1 l2 NE NV EL). cbn [option_map fst]. split; [reflexivity|]. right. auto.
Qed.

(** What has been collected once the pieces [ps] were read. *)
Definition Vt (types : list dtype) (k : bytes) (m : nat) : list dvar := flat_map (fun t => if list_eq_dec ascii_dec (t_str t) k then Vs (t_slots t) m else []) types.
Record typed (ps : list piece) (t : dtype) : Prop := {
  ty_of : exists ty n vs, In (Declares ty n vs) ps /\ valid x ty n vs = true /\ t_range t = (hd 0 ty, last ty 0) /\ t_str t = key x ty;
  ty_marks : Forall (marks (semi_for x ps (t_str t))) (t_slots t);
  ty_anchored : Forall anchored (t_slots t)
}.
Record inv (ps : list piece) (s : sd) : Prop := {
  in_dv : c_dv s = None;
  in_empty : Forall2 (fun d p => d_range d = (hd 0 (ptoks p), semi_of p)) (c_empty s) (filter (emptied x) ps);
  in_nodup : NoDup (map t_str (c_types s));
  in_type : Forall (typed ps) (c_types s);
  in_vars : forall k m, Vt (c_types s) k m = map (fun c => dv (snd c)) (filter (from x (k, m)) (flat_map (pclaims x) ps))
}.
Lemma semi_for_mono : forall ps qs k a, semi_for x ps k a -> semi_for x (ps ++ qs) k a.
Proof. intros ps qs k a (ty & n & vs & I & H). exists ty, n, vs. split; [apply in_or_app; left; exact I|exact H]. Qed.
Lemma marks_mono : forall (P Q : id -> Prop) l, (forall a, P a -> Q a) -> Forall (marks P) l -> Forall (marks Q) l.
Proof. intros P Q l H F. eapply Forall_impl; [|exact F]. intros sl [A B]. split; intros a K; apply H; auto. Qed.
Lemma typed_mono : forall ps qs t, typed ps t -> typed (ps ++ qs) t.
Proof.
  intros ps qs t [(ty & n & vs & I & H) B C]. constructor; [|eapply marks_mono; [|exact B]; intros a; apply semi_for_mono|exact C].
  exists ty, n, vs. split; [apply in_or_app; left; exact I|exact H].
Qed.
Lemma inv_same : forall ps s p, inv ps s -> emptied x p = false -> pclaims x p = [] -> inv (ps ++ [p]) s.
Proof.
  intros ps s p [A B C D F] He Hc. constructor; [exact A| |exact C|eapply Forall_impl; [|exact D]; intros t; apply typed_mono|].
  - rewrite filter_app. cbn [filter]. rewrite He, app_nil_r. exact B.
  - intros k m. rewrite F, flat_map_app. cbn [flat_map]. rewrite Hc, !app_nil_r. reflexivity.
Qed.
Lemma ignore : forall cs s, c_dv s = None -> Forall (ignored x) cs -> collect x cs s = Some s.
Proof.
  intros cs s Hd F. induction F as [|c cs I F IH]; [reflexivity|]. cbn [collect]. destruct c as [b e|t|t]; cbn [step]; cbn in I.
  - unfold sd_type. rewrite I. exact IH.
  - unfold sd_comma. rewrite Hd. exact IH.
  - unfold sd_semi. rewrite Hd. exact IH.
Qed.
Lemma delims_ignored : forall vs, Forall (ignored x) (map (delim_call x) vs).
Proof. intros vs. apply Forall_forall. intros c I. apply in_map_iff in I. destruct I as (v & <- & _). unfold delim_call. destruct (ttype_eqb (tyof x (w_delim v)) T_SEMI); exact I. Qed.
Lemma Vt_app : forall a b k m, Vt (a ++ b) k m = Vt a k m ++ Vt b k m.
Proof. intros. apply flat_map_app. Qed.
Lemma Vt_none : forall types k m, ~ In k (map t_str types) -> Vt types k m = [].
Proof. induction types as [|t types IH]; intros k m H; [reflexivity|]. cbn in *. destruct (list_eq_dec ascii_dec (t_str t) k); [exfalso; auto|]. apply IH. auto. Qed.
Lemma Vt_one : forall T1 T2 t k m, NoDup (map t_str (T1 ++ t :: T2)) -> Vt (T1 ++ t :: T2) k m = if list_eq_dec ascii_dec (t_str t) k then Vs (t_slots t) m else Vt (T1 ++ T2) k m.
Proof.
  intros T1 T2 t k m N. rewrite Vt_app. change (Vt (t :: T2) k m) with ((if list_eq_dec ascii_dec (t_str t) k then Vs (t_slots t) m else []) ++ Vt T2 k m).
  destruct (list_eq_dec ascii_dec (t_str t) k) as [<-|Q]; [|cbn [app]; rewrite Vt_app; reflexivity].
  rewrite map_app in N. cbn [map] in N. apply NoDup_remove_2 in N. rewrite (Vt_none T1), (Vt_none T2), app_nil_r; [reflexivity| |]; intros I; apply N; apply in_or_app; auto.
Qed.
Lemma filter_pair : forall k k' m l, filter (from x (k, m)) (map (pair k') l) = if list_eq_dec ascii_dec k' k then map (pair k') (filter (fun c => stars x (fst c) =? m) l) else [].
Proof.
  intros k k' m l. induction l as [|c l IH]; [cbn; destruct (list_eq_dec ascii_dec k' k); reflexivity|]. cbn [map filter]. rewrite IH. unfold from, class. cbn [fst snd].
  destruct (class_dec (k', stars x (fst c)) (k, m)) as [Q|Q], (list_eq_dec ascii_dec k' k) as [K|K], (Nat.eqb_spec (stars x (fst c)) m) as [M|M]; try reflexivity; exfalso; (congruence || (apply Q; congruence)).
Qed.
Lemma map_pair_dv : forall (k : bytes) l, map (fun c => dv (snd c)) (map (pair k) l) = map dv l.
Proof. intros. rewrite map_map. reflexivity. Qed.
Lemma semi_of_snoc : forall ty n us v, semi_of (Declares ty n (us ++ [v])) = w_delim v.
Proof. intros. cbn [semi_of]. rewrite last_last. reflexivity. Qed.

Lemma run_piece : forall ps p l1 l2 s, called x p -> L0 = l1 ++ ptoks p ++ l2 -> inv ps s -> exists s', collect x (pcalls x p) s = Some s' /\ inv (ps ++ [p]) s'.
Proof.
  intros ps p l1 l2 s C EL I. destruct p as [l cs|ty n vs].
  { exists s. split; [apply ignore; [apply (in_dv _ _ I)|exact C]|]. apply inv_same; [exact I|reflexivity|reflexivity]. }
  pose proof (sd_type_spec _ _ _ _ _ s C EL) as ST. cbn [pcalls collect step]. destruct (valid x ty n vs) eqn:Hv.
  2:{ rewrite ST. exists s. split; [apply ignore; [apply (in_dv _ _ I)|apply delims_ignored]|]. apply inv_same; [exact I| |]; cbn; rewrite Hv; reflexivity. }
  destruct ST as (T1 & tr & slots & T2 & -> & HT). destruct C as (NE & Ns & Ft & Fs & Nb & us & v & Ev & Ts & Fc & Hn).
  pose (P := semi_for x (ps ++ [Declares ty n vs]) (key x ty)).
  assert (Pv : P (w_delim v)). { exists ty, n, vs. split; [apply in_or_app; right; left; reflexivity|]. split; [exact Hv|]. split; [reflexivity|]. rewrite Ev, semi_of_snoc. reflexivity. }
  assert (TD : typed (ps ++ [Declares ty n vs]) (DType (hd 0 ty, last ty 0) [] (key x ty))).
  { constructor; cbn; [|constructor|constructor]. exists ty, n, vs. split; [apply in_or_app; right; left; reflexivity|auto]. }
  assert (TP : typed (ps ++ [Declares ty n vs]) (DType tr slots (key x ty))).
  { destruct HT as [HT|(_ & _ & -> & -> & _)]; [|exact TD]. apply typed_mono. pose proof (in_type _ _ I) as F. rewrite Forall_forall in F. apply F. rewrite HT. apply in_or_app. right. left. reflexivity. }
  assert (NT : NoDup (map t_str (T1 ++ DType tr slots (key x ty) :: T2))).
  { pose proof (in_nodup _ _ I) as N. destruct HT as [HT|(-> & HT & -> & -> & NI)]; rewrite HT in N; [exact N|]. rewrite map_app. cbn [map t_str]. apply (NoDup_Add (a := key x ty) (l := map t_str T1)); [|auto]. rewrite <- (app_nil_r (map t_str T1)) at 1. apply Add_app. }
  assert (FT : Forall (typed (ps ++ [Declares ty n vs])) (T1 ++ T2)).
  { pose proof (in_type _ _ I) as F. destruct HT as [HT|(-> & HT & _)]; rewrite HT in F; (eapply Forall_impl; [intros t; apply typed_mono|]).
    - apply Forall_app in F. destruct F as [F1 F2]. inv F2. apply Forall_app. auto.
    - rewrite app_nil_r. exact F. }
  assert (VT : forall k m, Vt (T1 ++ DType tr slots (key x ty) :: T2) k m = Vt (c_types s) k m).
  { intros k m. destruct HT as [->|(-> & -> & -> & _)]; [reflexivity|]. rewrite Vt_app. cbn [Vt flat_map t_slots]. unfold Vs. cbn [map]. destruct (list_eq_dec ascii_dec _ k); destruct m; cbn; rewrite app_nil_r; reflexivity. }
  destruct (run_vars P us v (l1 ++ ty) l2 (hd 0 (flat_map vtoks vs)) None (c_empty s) [] (hd 0 ty, last (reported ty n vs) 0) 0 T1 tr slots (key x ty) T2) as (slots' & Ec & M & A & V); try assumption.
  - rewrite EL. cbn [ptoks]. rewrite <- Ev, <- !app_assoc. reflexivity.
  - destruct l1; [|discriminate]. destruct ty; [contradiction|discriminate].
  - rewrite <- Ev. exact Hn.
  - rewrite Ev. reflexivity.
  - exact (ty_marks _ _ TP).
  - rewrite <- Ev in *. eexists. split; [exact Ec|]. constructor; cbn [c_dv c_empty c_types].
    + reflexivity.
    + rewrite filter_app. apply Forall2_app; [exact (in_empty _ _ I)|]. cbn [filter emptied]. rewrite Hv. cbn [andb Nat.eqb]. destruct (forallb (moves x) vs); [|constructor]. constructor; [|constructor]. cbn [d_range fst ptoks].
      rewrite Ev, semi_of_snoc. f_equal. destruct ty; [contradiction|reflexivity].
    + rewrite map_app in *. exact NT.
    + apply Forall_app in FT. destruct FT as [F1 F2]. apply Forall_app. split; [exact F1|]. constructor; [|exact F2]. destruct TP as [TP1 _ _]. constructor; [exact TP1|exact M|exact A].
    + intros k m. rewrite flat_map_app, filter_app, map_app, <- (in_vars _ _ I k m), <- VT. rewrite !Vt_one by (rewrite map_app in *; exact NT). cbn [flat_map pclaims t_str t_slots]. rewrite Hv, app_nil_r, filter_pair.
      destruct (list_eq_dec ascii_dec (key x ty) k); [|cbn; rewrite app_nil_r; reflexivity]. rewrite map_pair_dv. apply V.
Qed.
Lemma run_pieces : forall qs ps l1 l2 s, Forall (called x) qs -> L0 = l1 ++ flat_map ptoks qs ++ l2 -> inv ps s -> exists s', collect x (flat_map (pcalls x) qs) s = Some s' /\ inv (ps ++ qs) s'.
Proof.
  intros qs. induction qs as [|p qs IH]; intros ps l1 l2 s F EL I.
  - exists s. rewrite app_nil_r. auto.
  - cbn [flat_map] in *. inv F. rewrite <- app_assoc in EL. destruct (run_piece ps p l1 (flat_map ptoks qs ++ l2) s) as (s1 & E1 & I1); [assumption|exact EL|exact I|].
    destruct (IH (ps ++ [p]) (l1 ++ ptoks p) l2 s1) as (s2 & E2 & I2); [assumption|rewrite EL, <- app_assoc; reflexivity|exact I1|]. exists s2. split; [|rewrite <- app_assoc in I2; exact I2].
    assert (CA : forall a b s, collect x (a ++ b) s = do s <- collect x a s; collect x b s). { induction a as [|c a IHa]; intros b s0; [reflexivity|]. cbn [app collect]. destruct (step x c s0); [apply IHa|reflexivity]. }
    rewrite CA, E1. exact E2.
Qed.
Lemma run_all : forall ps, Forall (called x) ps -> L0 = flat_map ptoks ps -> exists s, collect x (flat_map (pcalls x) ps) sd_init = Some s /\ inv ps s.
Proof.
  intros ps F EL. apply (run_pieces ps [] [] [] sd_init F); [rewrite app_nil_r; exact EL|]. constructor; cbn; try constructor.
Qed.
End Collect.
