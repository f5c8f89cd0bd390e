(** Invariant of the transition system of TmpModel.v. *)
From Verif Require Import Base FileModel TmpModel.

Definition tmpname (p : path) : Prop := exists sfx, length sfx = 8 /\ ~ In "/"%char sfx /\ p = s2b "/tmp/libks." ++ sfx.
Record ofile := OF { w_fd : nat; w_d : nat; w_i : nat }.
Definition ent (x : ofile) : entry := Entry (w_fd x) (w_d x) false.
Definition holds (o : os) (x : ofile) (s : bytes) (off : nat) : Prop := i_data (f_nodes (o_fs o) (w_i x)) = s /\ o_off (o_descs o (w_d x)) = off.
Definition dev (fd : nat) : bytes := s2b "/dev/fd/" ++ dec fd.
Definition opt_fd (o : option nat) : list nat := match o with Some a => [a] | None => [] end.
Definition base (c : call) (w : side) (o : os) (l : locals) (own : list ofile) : Prop :=
  match w with
  | Src => own = [] /\ l_srcfd l = None /\ l_dstfd l = None
  | Dst => exists x, own = [x] /\ l_srcfd l = Some (w_fd x) /\ l_dstfd l = None /\ l_srcpath l = dev (w_fd x) /\ holds o x (cl_src c) 0
  end.
Definition cur (c : call) (w : side) (o : os) (l : locals) (ch : child) (own : list ofile) (fd : nat) (s : bytes) (off : nat) : Prop :=
  ch = CNone /\ cl_src c <> cl_dst c /\ exists x own', own = x :: own' /\ w_fd x = fd /\ base c w o l own' /\ holds o x s off.
Definition ctl (c : call) (k : tpc) (o : os) (l : locals) (ch : child) (own : list ofile) : Prop :=
  match k with
  | TCmp => ch = CNone /\ base c Src o l own
  | TName w | TUmask w | TMkstemp w _ | TRestore w _ None => ch = CNone /\ cl_src c <> cl_dst c /\ base c w o l own
  | TRestore w _ (Some (fd, _)) | TUnlink w fd _ => cur c w o l ch own fd [] 0
  | TWrite w fd rest => exists pre, pre ++ rest = side_data c w /\ cur c w o l ch own fd pre (length pre)
  | TSeek w fd => cur c w o l ch own fd (side_data c w) (length (side_data c w))
  | TPath w fd => cur c w o l ch own fd (side_data c w) 0
  | TErr fd => ch = CNone /\ cl_src c <> cl_dst c /\ exists x own', own = x :: own' /\ w_fd x = fd /\ map w_fd own' = opt_fd (l_dstfd l) ++ opt_fd (l_srcfd l) /\ length own' <= 1
  | TFork => ch = CNone /\ cl_src c <> cl_dst c /\ exists xd xs, own = [xd; xs] /\ l_dstfd l = Some (w_fd xd) /\ l_srcfd l = Some (w_fd xs) /\ l_dstpath l = dev (w_fd xd) /\ l_srcpath l = dev (w_fd xs) /\ holds o xd (cl_dst c) 0 /\ holds o xs (cl_src c) 0
  | TWait | TOut1 => cl_src c <> cl_dst c /\ map w_fd own = opt_fd (l_dstfd l) ++ opt_fd (l_srcfd l)
  | TOut2 => cl_src c <> cl_dst c /\ map w_fd own = opt_fd (l_dstfd l)
  | TRet r => own = [] /\ (r = false <-> cl_src c = cl_dst c)
  | TBad => False
  end.
Definition live (k : tpc) : list path := match k with TRestore _ _ (Some (_, tmp)) | TUnlink _ _ tmp => [tmp] | _ => [] end.
Definition umask_ok (u0 : nat) (k : tpc) (u : nat) : Prop := match k with TMkstemp _ old | TRestore _ old _ => old = u0 | _ => u = u0 end.
(** The file an entry leads to. *)
Definition at_entry (o : os) (tab : list entry) (p : bytes) (s : bytes) (off : option nat) : Prop :=
  exists fd e, p = dev fd /\ tab_get fd tab = Some e /\ e_cloexec e = false /\ i_data (f_nodes (o_fs o) (o_node (o_descs o (e_desc e)))) = s /\
    match off with Some n => o_off (o_descs o (e_desc e)) = n | None => True end.
Definition child_ok (c : call) (o : os) (l : locals) (ch : child) : Prop :=
  match ch with
  | CNone | CExit => True
  | CForked tab => cl_src c <> cl_dst c /\ at_entry o tab (l_srcpath l) (cl_src c) (Some 0) /\ at_entry o tab (l_dstpath l) (cl_dst c) (Some 0)
  | CDiff tab f args => cl_src c <> cl_dst c /\ f = s2b "/usr/bin/diff" /\ (exists sp dp, args = [s2b "/usr/bin/diff"; s2b "-u"; s2b "-L"; cl_path c ++ s2b ".orig"; s2b "-L"; cl_path c; sp; dp] /\
      at_entry o tab sp (cl_src c) None /\ at_entry o tab dp (cl_dst c) None)
  end.
Record tab_ok (o0 o : os) (own : list ofile) : Prop := {
  tk_tab : o_tab o = map ent own ++ o_tab o0;
  tk_fds : NoDup (map e_fd (o_tab o));
  tk_ds : NoDup (map w_d own);
  tk_is : NoDup (map w_i own);
  tk_lt : forall x, In x own -> w_d x < o_next o /\ f_next (o_fs o0) <= w_i x < f_next (o_fs o) /\ o_node (o_descs o (w_d x)) = w_i x
}.
Record fs_ok (o0 o : os) (names : list path) : Prop := {
  fk_next : f_next (o_fs o0) <= f_next (o_fs o);
  fk_old : forall i, i < f_next (o_fs o0) -> f_nodes (o_fs o) i = f_nodes (o_fs o0) i;
  fk_same : forall p, ~ In p names -> f_names (o_fs o) p = f_names (o_fs o0) p;
  fk_new : forall p, In p names -> f_names (o_fs o0) p = None /\ tmpname p
}.
Definition tinv (c : call) (o0 : os) (s : tstate) : Prop :=
  exists own, tab_ok o0 (t_os s) own /\ fs_ok o0 (t_os s) (live (t_pc s) ++ t_kept s) /\ umask_ok (o_umask o0) (t_pc s) (o_umask (t_os s)) /\
    ctl c (t_pc s) (t_os s) (t_loc s) (t_child s) own /\ child_ok c (t_os s) (t_loc s) (t_child s).

(** ** Descriptors *)
Lemma tab_get_in : forall fd t, In fd (map e_fd t) -> exists e, tab_get fd t = Some e.
Proof.
  intros fd t H. unfold tab_get. destruct (find _ t) as [e|] eqn:E; [eauto|]. apply in_map_iff in H. destruct H as (e & H1 & H2). specialize (find_none _ _ E e H2). cbn. rewrite H1, Nat.eqb_refl. discriminate.
Qed.
Lemma filter_none : forall fd t, ~ In fd (map e_fd t) -> filter (fun e => negb (e_fd e =? fd)) t = t.
Proof.
  induction t as [|e t IH]; intros H; cbn in *; [reflexivity|]. destruct (Nat.eqb_spec (e_fd e) fd) as [K|K]; [exfalso; auto|]. cbn. f_equal. auto.
Qed.
Lemma tab_close_spec : forall a e b, NoDup (map e_fd (a ++ e :: b)) -> tab_close (e_fd e) (a ++ e :: b) = Some (a ++ b).
Proof.
  intros a e b H. unfold tab_close. destruct (tab_get_in (e_fd e) (a ++ e :: b)) as (x & ->); [rewrite map_app; apply in_or_app; right; left; reflexivity|]. f_equal. rewrite map_app in H. cbn in H. apply NoDup_remove_2 in H. rewrite in_app_iff in H. rewrite filter_app. cbn. rewrite Nat.eqb_refl. cbn. rewrite !filter_none by tauto. reflexivity.
Qed.
Lemma tab_get_cons : forall e t, tab_get (e_fd e) (e :: t) = Some e.
Proof. intros e t. unfold tab_get. cbn. rewrite Nat.eqb_refl. reflexivity. Qed.
Lemma tab_get_exec : forall fd t e, tab_get fd t = Some e -> e_cloexec e = false -> tab_get fd (filter (fun e => negb (e_cloexec e)) t) = Some e.
Proof.
  unfold tab_get. induction t as [|x t IH]; intros e H K; cbn in *; [discriminate|]. destruct (Nat.eqb_spec (e_fd x) fd) as [E|E].
  - injection H as ->. rewrite K. cbn. rewrite E, Nat.eqb_refl. reflexivity.
  - destruct (negb (e_cloexec x)); cbn; [|auto]. destruct (Nat.eqb_spec (e_fd x) fd); [contradiction|auto].
Qed.
Lemma at_entry_exec : forall o t p s off, at_entry o t p s off -> at_entry o (filter (fun e => negb (e_cloexec e)) t) p s None.
Proof. intros o t p s off (fd & e & -> & G & X & D & _). exists fd, e. split; [reflexivity|]. split; [apply tab_get_exec; assumption|auto]. Qed.

(** ** Steps that leave the kernel alone *)
Lemma base_map : forall c w o l own, base c w o l own -> map w_fd own = opt_fd (l_dstfd l) ++ opt_fd (l_srcfd l).
Proof. intros c [|] o l own; cbn [base]; [intros (-> & -> & ->); reflexivity|]. intros (x & -> & -> & -> & _). reflexivity. Qed.
Lemma holds_ext : forall o o' x s off, (f_nodes (o_fs o') (w_i x) = f_nodes (o_fs o) (w_i x)) -> o_descs o' (w_d x) = o_descs o (w_d x) -> holds o x s off -> holds o' x s off.
Proof. intros o o' x s off E1 E2 [H1 H2]. split; [rewrite E1|rewrite E2]; assumption. Qed.
Lemma base_ext : forall c w o o' l own, (forall x, In x own -> f_nodes (o_fs o') (w_i x) = f_nodes (o_fs o) (w_i x) /\ o_descs o' (w_d x) = o_descs o (w_d x)) -> base c w o l own -> base c w o' l own.
Proof.
  intros c [|] o o' l own H; cbn [base]; [auto|]. intros (x & -> & A & B & C & D). exists x. destruct (H x (or_introl eq_refl)) as [E1 E2]. refine (conj eq_refl (conj A (conj B (conj C _)))). eapply holds_ext; eassumption.
Qed.
Lemma fs_ok_live : forall o0 o n n', (forall p, In p n <-> In p n') -> fs_ok o0 o n -> fs_ok o0 o n'.
Proof. intros o0 o n n' H [A B C D]. constructor; auto. - intros p K. apply C. rewrite H. exact K. - intros p K. apply D. rewrite H. exact K. Qed.

(** The file at the head is the one written to. *)
Lemma head_get : forall o0 o x own, tab_ok o0 o (x :: own) -> tab_get (w_fd x) (o_tab o) = Some (ent x).
Proof. intros o0 o x own K. rewrite (tk_tab _ _ _ K). exact (tab_get_cons (ent x) _). Qed.
Lemma set_desc_node : forall o0 o own d off, tab_ok o0 o own -> tab_ok o0 (set_desc d (Desc (o_node (o_descs o d)) off) o) own.
Proof.
  intros o0 o own d off [A B C D E]. constructor; auto. intros x Hx. destruct (E x Hx) as (E1 & E2 & E3). split; [exact E1|]. split; [exact E2|]. cbn. destruct (Nat.eqb_spec (w_d x) d) as [<-|_]; exact E3.
Qed.
Lemma tab_ok_tail : forall o0 o own a x b, own = a ++ x :: b -> tab_ok o0 o own -> exists t, tab_close (w_fd x) (o_tab o) = Some t /\ tab_ok o0 (set_tab t o) (a ++ b).
Proof.
  intros o0 o own a x b -> [A B C D E].
  assert (A1 : o_tab o = map ent a ++ ent x :: (map ent b ++ o_tab o0)) by (rewrite A, map_app, <- app_assoc; reflexivity).
  assert (A2 : map ent (a ++ b) ++ o_tab o0 = map ent a ++ (map ent b ++ o_tab o0)) by (rewrite map_app, <- app_assoc; reflexivity).
  exists (map ent (a ++ b) ++ o_tab o0). rewrite A1 in B. split; [rewrite A1, A2; exact (tab_close_spec (map ent a) (ent x) (map ent b ++ o_tab o0) B)|]. constructor; cbn [set_tab o_tab o_next o_fs o_descs].
  - reflexivity.
  - rewrite A2, map_app. rewrite map_app in B. cbn [map] in B. eapply NoDup_remove_1. exact B.
  - rewrite map_app in *. eapply NoDup_remove_1. exact C.
  - rewrite map_app in *. eapply NoDup_remove_1. exact D.
  - intros y Hy. apply E. rewrite in_app_iff in *. cbn. tauto.
Qed.
Lemma write_end : forall pre a n, i_data n = pre -> i_data (write_at (length pre) a n) = pre ++ a.
Proof. intros pre a n E. cbn. rewrite E. rewrite firstn_all, skipn_all2 by lia. rewrite app_nil_r. reflexivity. Qed.

Lemma mkstemp_tab : forall o0 o own fd tmp m u g, f_next (o_fs o0) <= f_next (o_fs o) -> tab_ok o0 o own -> ~ In fd (map e_fd (o_tab o)) ->
  tab_ok o0 (os_mkstemp tmp fd m u g o) (OF fd (o_next o) (f_next (o_fs o)) :: own).
Proof.
  intros o0 o own fd tmp m u g F [A B C D E] N. constructor; cbn [os_mkstemp o_tab o_next o_fs o_descs f_next map w_d w_i].
  - rewrite A. reflexivity.
  - cbn. constructor; assumption.
  - constructor; [|exact C]. intros K. apply in_map_iff in K. destruct K as (x & K1 & K2). destruct (E x K2) as (E1 & _). lia.
  - constructor; [|exact D]. intros K. apply in_map_iff in K. destruct K as (x & K1 & K2). destruct (E x K2) as (_ & E1 & _). lia.
  - intros x [<-|Hx]; cbn [w_d w_i].
    + rewrite Nat.eqb_refl. cbn. lia.
    + destruct (E x Hx) as (E1 & E2 & E3). destruct (Nat.eqb_spec (w_d x) (o_next o)); [lia|]. split; [lia|]. split; [lia|exact E3].
Qed.
Lemma mkstemp_same : forall o0 o own fd tmp m u g x, tab_ok o0 o own -> In x own ->
  f_nodes (o_fs (os_mkstemp tmp fd m u g o)) (w_i x) = f_nodes (o_fs o) (w_i x) /\ o_descs (os_mkstemp tmp fd m u g o) (w_d x) = o_descs o (w_d x).
Proof.
  intros o0 o own fd tmp m u g x K Hx. destruct (tk_lt _ _ _ K x Hx) as (E1 & E2 & _). cbn. destruct (Nat.eqb_spec (w_i x) (f_next (o_fs o))); [lia|]. destruct (Nat.eqb_spec (w_d x) (o_next o)); [lia|]. auto.
Qed.
Lemma mkstemp_fs : forall o0 o n fd tmp m u g, fs_ok o0 o n -> f_names (o_fs o) tmp = None -> tmpname tmp -> fs_ok o0 (os_mkstemp tmp fd m u g o) (tmp :: n).
Proof.
  intros o0 o n fd tmp m u g [A B C D] N T. constructor; cbn [os_mkstemp o_fs f_next f_nodes f_names set_node set_name].
  - lia.
  - intros i L. destruct (Nat.eqb_spec i (f_next (o_fs o))); [lia|auto].
  - intros p K. unfold path_eqb. destruct (list_eq_dec ascii_dec p tmp) as [->|E]; [exfalso; apply K; left; reflexivity|]. apply C. intros K'. apply K. right. exact K'.
  - intros p [<-|K]; [|auto]. split; [|exact T]. destruct (in_dec (list_eq_dec ascii_dec) tmp n) as [K|K]; [apply (D tmp K)|]. rewrite <- C; assumption.
Qed.
Lemma unlink_fs : forall o0 o n tmp, fs_ok o0 o (tmp :: n) -> fs_ok o0 (set_fs (set_name tmp None (o_fs o)) o) n.
Proof.
  intros o0 o n tmp [A B C D]. constructor; cbn [set_fs o_fs set_name f_next f_nodes f_names]; auto.
  - intros p K. unfold path_eqb. destruct (list_eq_dec ascii_dec p tmp) as [->|E]; [symmetry; apply D; left; reflexivity|]. apply C. intros [K'|K']; auto.
  - intros p K. apply D. right. exact K.
Qed.
Lemma write_tab : forall o0 o own d a, tab_ok o0 o own -> tab_ok o0 (os_write d a o) own.
Proof.
  intros o0 o own d a [A B C D E]. constructor; auto. intros x Hx. destruct (E x Hx) as (E1 & E2 & E3). split; [exact E1|]. split; [exact E2|]. cbn. destruct (Nat.eqb_spec (w_d x) d) as [<-|_]; exact E3.
Qed.
Lemma write_fs : forall o0 o own x n a, tab_ok o0 o (x :: own) -> fs_ok o0 o n -> fs_ok o0 (os_write (w_d x) a o) n.
Proof.
  intros o0 o own x n a K [A B C D]. destruct (tk_lt _ _ _ K x (or_introl eq_refl)) as (_ & E2 & E3). constructor; auto. intros i L. cbn. rewrite E3. destruct (Nat.eqb_spec i (w_i x)); [lia|auto].
Qed.
Lemma other : forall o0 o x own y, tab_ok o0 o (x :: own) -> In y own -> w_d y <> w_d x /\ w_i y <> w_i x.
Proof.
  intros o0 o x own y K Hy. assert (C := tk_ds _ _ _ K). assert (D := tk_is _ _ _ K). cbn in C, D. inversion C as [|? ? C1 _]. inversion D as [|? ? D1 _]. subst. split; intros E; [apply C1|apply D1]; rewrite <- E; apply in_map; exact Hy.
Qed.
Lemma write_cur : forall c w o0 o l ch own fd pre a e, tab_ok o0 o own -> tab_get fd (o_tab o) = Some e -> cur c w o l ch own fd pre (length pre) ->
  (exists x own', own = x :: own' /\ e_desc e = w_d x) /\ cur c w (os_write (e_desc e) a o) l ch own fd (pre ++ a) (length (pre ++ a)).
Proof.
  intros c w o0 o l ch own fd pre a e K G (H1 & H2 & x & own' & -> & F & B & [D O]). rewrite <- F, (head_get _ _ _ _ K) in G. injection G as <-. cbn [ent e_desc]. split; [eauto|].
  split; [exact H1|]. split; [exact H2|]. exists x, own'. split; [reflexivity|]. split; [exact F|]. destruct (tk_lt _ _ _ K x (or_introl eq_refl)) as (_ & _ & E3). split.
  - eapply base_ext; [|exact B]. intros y Hy. destruct (other _ _ _ _ _ K Hy) as [N1 N2]. cbn. rewrite E3. destruct (Nat.eqb_spec (w_i y) (w_i x)); [contradiction|]. destruct (Nat.eqb_spec (w_d y) (w_d x)); [contradiction|]. auto.
  - split.
    + unfold os_write. cbn [set_desc set_fs o_fs set_node f_nodes]. rewrite E3, Nat.eqb_refl. rewrite O. apply write_end. exact D.
    + cbn. rewrite Nat.eqb_refl. cbn. rewrite O, app_length. reflexivity.
Qed.
Lemma seek_cur : forall c w o0 o l ch own fd s off e, tab_ok o0 o own -> tab_get fd (o_tab o) = Some e -> cur c w o l ch own fd s off ->
  cur c w (set_desc (e_desc e) (Desc (o_node (o_descs o (e_desc e))) 0) o) l ch own fd s 0.
Proof.
  intros c w o0 o l ch own fd s off e K G (H1 & H2 & x & own' & -> & F & B & [D O]). rewrite <- F, (head_get _ _ _ _ K) in G. injection G as <-. cbn [ent e_desc].
  split; [exact H1|]. split; [exact H2|]. exists x, own'. split; [reflexivity|]. split; [exact F|]. split.
  - eapply base_ext; [|exact B]. intros y Hy. destruct (other _ _ _ _ _ K Hy) as [N1 N2]. cbn. destruct (Nat.eqb_spec (w_d y) (w_d x)); [contradiction|]. auto.
  - split; [exact D|]. cbn. rewrite Nat.eqb_refl. reflexivity.
Qed.
Lemma cur_err : forall c w o l ch own fd s off, cur c w o l ch own fd s off ->
  ch = CNone /\ cl_src c <> cl_dst c /\ exists x own', own = x :: own' /\ w_fd x = fd /\ map w_fd own' = opt_fd (l_dstfd l) ++ opt_fd (l_srcfd l) /\ length own' <= 1.
Proof. intros c w o l ch own fd s off (H1 & H2 & x & own' & E & F & B & _). split; [exact H1|]. split; [exact H2|]. exists x, own'. split; [exact E|]. split; [exact F|]. split; [eapply base_map; exact B|]. destruct w; cbn [base] in B; [destruct B as (-> & _); cbn; lia|destruct B as (y & -> & _); cbn; lia]. Qed.
Lemma fs_ok_os : forall o0 o o' n, o_fs o' = o_fs o -> fs_ok o0 o n -> fs_ok o0 o' n.
Proof. intros o0 o o' n E [A B C D]. constructor; rewrite ?E; assumption. Qed.
Lemma tab_ok_os : forall o0 o o' own, o_fs o' = o_fs o -> o_descs o' = o_descs o -> o_next o' = o_next o -> o_tab o' = o_tab o -> tab_ok o0 o own -> tab_ok o0 o' own.
Proof. intros o0 o o' own E1 E2 E3 E4 [A B C D E]. constructor; rewrite ?E4, ?E3, ?E2, ?E1; assumption. Qed.
Lemma at_entry_os : forall o o' t p s off, o_fs o' = o_fs o -> o_descs o' = o_descs o -> at_entry o t p s off -> at_entry o' t p s off.
Proof. intros o o' t p s off E1 E2 H. unfold at_entry in *. rewrite E1, E2. exact H. Qed.
Lemma child_ok_os : forall c o o' l ch, o_fs o' = o_fs o -> o_descs o' = o_descs o -> child_ok c o l ch -> child_ok c o' l ch.
Proof.
  intros c o o' l [|tab|tab f args|] E1 E2; cbn [child_ok]; auto.
  - intros (A & B & C). split; [exact A|]. split; eapply at_entry_os; eassumption.
  - intros (A & B & sp & dp & C & D & E). split; [exact A|]. split; [exact B|]. exists sp, dp. split; [exact C|]. split; eapply at_entry_os; eassumption.
Qed.
Lemma at_entry_read : forall o t p s d off, at_entry o t p s None -> at_entry (set_desc d (Desc (o_node (o_descs o d)) off) o) t p s None.
Proof.
  intros o t p s d off (fd & e & A & B & C & D & _). exists fd, e. split; [exact A|]. split; [exact B|]. split; [exact C|]. split; [|exact I]. cbn. destruct (Nat.eqb_spec (e_desc e) d) as [<-|_]; exact D.
Qed.
(** Closing one of the descriptors still open. *)
Lemma closes_inv : forall c o0 s own a x b k, own = a ++ x :: b -> tab_ok o0 (t_os s) own -> fs_ok o0 (t_os s) (t_kept s) -> o_umask (t_os s) = o_umask o0 -> child_ok c (t_os s) (t_loc s) (t_child s) ->
  live k = [] -> (forall u, umask_ok (o_umask o0) k u <-> u = o_umask o0) -> (forall o, ctl c k o (t_loc s) (t_child s) (a ++ b)) -> tinv c o0 (closes (w_fd x) k s).
Proof.
  intros c o0 s own a x b k E K F U C L Um Ct. destruct (tab_ok_tail _ _ _ _ _ _ E K) as (t & T & K'). unfold closes. rewrite T. exists (a ++ b). cbn [goto with_os t_pc t_os t_loc t_child t_kept]. rewrite L.
  split; [exact K'|]. split; [eapply fs_ok_os; [|exact F]; reflexivity|]. split; [apply Um; exact U|]. split; [apply Ct|]. eapply child_ok_os; [| |exact C]; reflexivity.
Qed.

Lemma tinv_init : forall c o0, NoDup (map e_fd (o_tab o0)) -> tinv c o0 (tinit o0).
Proof.
  intros c o0 N. exists []. cbn [tinit t_pc t_os t_loc t_child t_kept live app]. repeat split; cbn; auto; try constructor; try contradiction. all: intros x [].
Qed.
Lemma tstep_inv : forall c o0 s s', tinv c o0 s -> tstep c s s' -> tinv c o0 s'.
Proof.
  intros c o0 s s' (own & K & F & U & C & Ch) H.
  destruct H as [E Q|E Q|w E|w E|w E|w old sfx fd m u g E L NS NN NF|w old E|w old r E|w fd tmp E|w fd tmp E|w fd a b e E NE G|w fd rest E NE|w fd E|w fd e E G|w fd E|w fd E L|w fd E|fd E|E|E|tab E|tab E|tab f args e off E He|tab f args E|E X|E|E|E].
  all: try (rewrite E in F, U, C; cbn [live app umask_ok ctl] in F, U, C).
  - exists own. cbn [goto t_pc t_os t_loc t_child t_kept live app umask_ok ctl]. destruct C as (C1 & C2 & _). refine (conj K (conj F (conj U (conj (conj C2 _) Ch)))). split; auto.
  - exists own. cbn [goto t_pc t_os t_loc t_child t_kept live app umask_ok ctl]. destruct C as (C1 & C2). exact (conj K (conj F (conj U (conj (conj C1 (conj Q C2)) Ch)))).
  - exists own. exact (conj K (conj F (conj U (conj C Ch)))).
  - exists own. destruct C as (C1 & C2 & C3). exact (conj K (conj F (conj U (conj (conj C2 (base_map _ _ _ _ _ C3)) Ch)))).
  - exists own. cbn [goto with_os t_pc t_os t_loc t_child t_kept live app umask_ok ctl]. refine (conj _ (conj _ (conj _ (conj _ _)))).
    + eapply tab_ok_os; [| | | |exact K]; reflexivity.
    + eapply fs_ok_os; [|exact F]; reflexivity.
    + exact U.
    + destruct C as (C1 & C2 & C3). split; [exact C1|]. split; [exact C2|]. eapply base_ext; [|exact C3]. intros; split; reflexivity.
    + eapply child_ok_os; [| |exact Ch]; reflexivity.
  - destruct C as (C1 & C2 & C3). exists (OF fd (o_next (t_os s)) (f_next (o_fs (t_os s))) :: own). cbn [goto with_os t_pc t_os t_loc t_child t_kept live app umask_ok ctl]. refine (conj _ (conj _ (conj _ (conj _ _)))).
    + apply mkstemp_tab; [apply (fk_next _ _ _ F)|exact K|exact NF].
    + cbn [app]. apply mkstemp_fs; [exact F|exact NN|]. exists sfx. auto.
    + exact U.
    + split; [exact C1|]. split; [exact C2|]. exists (OF fd (o_next (t_os s)) (f_next (o_fs (t_os s)))), own. split; [reflexivity|]. split; [reflexivity|]. split.
      * eapply base_ext; [|exact C3]. intros x Hx. eapply mkstemp_same; eassumption.
      * split; cbn; rewrite Nat.eqb_refl; reflexivity.
    + rewrite C1. exact I.
  - exists own. exact (conj K (conj F (conj U (conj C Ch)))).
  - exists own. assert (K' : tab_ok o0 (set_umask old (t_os s)) own) by (eapply tab_ok_os; [| | | |exact K]; reflexivity). assert (Ch' : child_ok c (set_umask old (t_os s)) (t_loc s) (t_child s)) by (eapply child_ok_os; [| |exact Ch]; reflexivity). destruct r as [[fd tmp]|]; cbn [goto with_os t_pc t_os t_loc t_child t_kept live app umask_ok ctl] in *.
    + refine (conj K' (conj _ (conj U (conj _ Ch')))); [eapply fs_ok_os; [|exact F]; reflexivity|]. destruct C as (C1 & C2 & x & own' & C3 & C4 & C5 & C6). split; [exact C1|]. split; [exact C2|]. exists x, own'. split; [exact C3|]. split; [exact C4|]. split; [|exact C6]. eapply base_ext; [|exact C5]. intros; split; reflexivity.
    + refine (conj K' (conj _ (conj U (conj _ Ch')))); [eapply fs_ok_os; [|exact F]; reflexivity|]. destruct C as (C1 & C2 & C3). split; [exact C2|]. eapply base_map. exact C3.
  - exists own. cbn [goto with_os t_pc t_os t_loc t_child t_kept live app umask_ok ctl]. refine (conj _ (conj _ (conj U (conj _ _)))).
    + destruct K as [A1 A2 A3 A4 A5]. constructor; auto.
    + apply unlink_fs. exact F.
    + exists []. split; [reflexivity|]. destruct C as (C1 & C2 & x & own' & C3 & C4 & C5 & C6). split; [exact C1|]. split; [exact C2|]. exists x, own'. split; [exact C3|]. split; [exact C4|]. split; [|exact C6]. eapply base_ext; [|exact C5]. intros; split; reflexivity.
    + destruct C as (C1 & _). rewrite C1. exact I.
  - exists own. cbn [goto keeps t_pc t_os t_loc t_child t_kept live app umask_ok ctl]. exact (conj K (conj F (conj U (conj (cur_err _ _ _ _ _ _ _ _ _ C) Ch)))).
  - exists own. destruct C as (pre & P & C). destruct (write_cur _ _ _ _ _ _ _ _ _ a _ K G C) as ((x & own' & Eo & Ed) & C'). cbn [goto with_os t_pc t_os t_loc t_child t_kept live app umask_ok ctl]. refine (conj _ (conj _ (conj U (conj _ _)))).
    + apply write_tab. exact K.
    + rewrite Eo in K. rewrite Ed. eapply write_fs; eassumption.
    + exists (pre ++ a). split; [rewrite <- app_assoc; exact P|exact C'].
    + destruct C as (C1 & _). rewrite C1. exact I.
  - exists own. destruct C as (pre & P & C). exact (conj K (conj F (conj U (conj (cur_err _ _ _ _ _ _ _ _ _ C) Ch)))).
  - exists own. destruct C as (pre & P & C). rewrite app_nil_r in P. subst pre. exact (conj K (conj F (conj U (conj C Ch)))).
  - exists own. cbn [goto with_os t_pc t_os t_loc t_child t_kept live app umask_ok ctl]. refine (conj _ (conj _ (conj U (conj _ _)))).
    + apply set_desc_node. exact K.
    + eapply fs_ok_os; [|exact F]; reflexivity.
    + eapply seek_cur; eassumption.
    + destruct C as (C1 & _). rewrite C1. exact I.
  - exists own. exact (conj K (conj F (conj U (conj (cur_err _ _ _ _ _ _ _ _ _ C) Ch)))).
  - exists own. destruct C as (C1 & C2 & x & own' & -> & <- & C5 & C6). unfold returned. destruct w; cbn [t_pc t_os t_loc t_child t_kept live app umask_ok ctl l_srcfd l_dstfd l_srcpath l_dstpath].
    + refine (conj K (conj F (conj U (conj (conj C1 (conj C2 _)) _)))); [|rewrite C1; exact I]. destruct C5 as (-> & _ & C5). exists x. cbn [l_srcfd l_dstfd l_srcpath]. auto.
    + refine (conj K (conj F (conj U (conj (conj C1 (conj C2 _)) _)))); [|rewrite C1; exact I]. destruct C5 as (y & -> & S1 & S2 & S3 & S4). exists x, y. auto 10.
  - exists own. exact (conj K (conj F (conj U (conj (cur_err _ _ _ _ _ _ _ _ _ C) Ch)))).
  - destruct C as (C1 & C2 & x & own' & -> & <- & C5 & _). eapply (closes_inv c o0 s _ [] x own'); [reflexivity|exact K|exact F|exact U|exact Ch|reflexivity|reflexivity|]. intros o. exact (conj C2 C5).
  - exists own. cbn [goto warns t_pc t_os t_loc t_child t_kept live app umask_ok ctl]. destruct C as (C1 & C2 & xd & xs & -> & D1 & D2 & _). refine (conj K (conj F (conj U (conj (conj C2 _) Ch)))). rewrite D1, D2. reflexivity.
  - exists own. cbn [goto with_child t_pc t_os t_loc t_child t_kept live app umask_ok ctl]. destruct C as (C1 & C2 & xd & xs & -> & D1 & D2 & D3 & D4 & [D5 D6] & [D7 D8]). refine (conj K (conj F (conj U (conj (conj C2 _) _)))); [rewrite D1, D2; reflexivity|]. cbn [child_ok]. split; [exact C2|].
    destruct (tk_lt _ _ _ K xd (or_introl eq_refl)) as (_ & _ & Nd). destruct (tk_lt _ _ _ K xs (or_intror (or_introl eq_refl))) as (_ & _ & Ns). split.
    + exists (w_fd xs), (ent xs). split; [exact D4|]. split; [|cbn [ent e_cloexec e_desc]; rewrite Ns; auto].
      rewrite (tk_tab _ _ _ K). cbn [map app]. unfold tab_get. cbn [find ent e_fd]. assert (N := tk_fds _ _ _ K). rewrite (tk_tab _ _ _ K) in N. cbn in N. inversion N as [|? ? N1 _]. destruct (Nat.eqb_spec (w_fd xd) (w_fd xs)) as [Q|_]; [exfalso; apply N1; left; symmetry; exact Q|]. rewrite Nat.eqb_refl. reflexivity.
    + exists (w_fd xd), (ent xd). split; [exact D3|]. split; [eapply head_get; exact K|cbn [ent e_cloexec e_desc]; rewrite Nd; auto].
  - exists own. cbn [with_child t_pc t_os t_loc t_child t_kept]. rewrite E in *. cbn [child_ok] in Ch. destruct Ch as (H1 & H2 & H3). refine (conj K (conj F (conj U (conj _ _)))).
    + clear - C. destruct (t_pc s) as [|w|w|w old|w old [[fd tmp]|]|w fd tmp|w fd rest|w fd|w fd|fd| | | | |r|]; cbn [ctl] in *; unfold cur in *; auto; exfalso; try (destruct C as (C & _); discriminate C). destruct C as (pre & _ & C & _). discriminate C.
    + split; [exact H1|]. split; [reflexivity|]. exists (l_srcpath (t_loc s)), (l_dstpath (t_loc s)). split; [reflexivity|]. split; eapply at_entry_exec; eassumption.
  - exists own. cbn [with_child t_pc t_os t_loc t_child t_kept]. rewrite E in *. refine (conj K (conj F (conj U (conj _ I)))).
    clear - C. destruct (t_pc s) as [|w|w|w old|w old [[fd tmp]|]|w fd tmp|w fd rest|w fd|w fd|fd| | | | |r|]; cbn [ctl] in *; unfold cur in *; auto; exfalso; try (destruct C as (C & _); discriminate C). destruct C as (pre & _ & C & _). discriminate C.
  - exists own. cbn [with_os t_pc t_os t_loc t_child t_kept]. rewrite E in *. refine (conj _ (conj _ (conj U (conj _ _)))).
    + apply set_desc_node. exact K.
    + eapply fs_ok_os; [|exact F]; reflexivity.
    + clear - C. destruct (t_pc s) as [|w|w|w old|w old [[fd tmp]|]|w fd tmp|w fd rest|w fd|w fd|fd| | | | |r|]; cbn [ctl] in *; unfold cur in *; auto; exfalso; try (destruct C as (C & _); discriminate C). destruct C as (pre & _ & C & _). discriminate C.
    + cbn [child_ok] in *. destruct Ch as (H1 & H2 & sp & dp & H3 & H4 & H5). split; [exact H1|]. split; [exact H2|]. exists sp, dp. split; [exact H3|]. split; apply at_entry_read; assumption.
  - exists own. cbn [with_child t_pc t_os t_loc t_child t_kept]. rewrite E in *. refine (conj K (conj F (conj U (conj _ I)))).
    clear - C. destruct (t_pc s) as [|w|w|w old|w old [[fd tmp]|]|w fd tmp|w fd rest|w fd|w fd|fd| | | | |r|]; cbn [ctl] in *; unfold cur in *; auto; exfalso; try (destruct C as (C & _); discriminate C). destruct C as (pre & _ & C & _). discriminate C.
  - exists own. exact (conj K (conj F (conj U (conj C Ch)))).
  - exists own. exact (conj K (conj F (conj U (conj C Ch)))).
  - destruct C as (C1 & C2). unfold closes_opt. destruct (l_srcfd (t_loc s)) as [a|] eqn:Ls.
    + assert (exists h x, own = h ++ x :: [] /\ w_fd x = a /\ map w_fd h = opt_fd (l_dstfd (t_loc s))) as (h & x & Eo & <- & Mh).
      { clear - C2. destruct (l_dstfd (t_loc s)) as [b|]; cbn in C2.
        - destruct own as [|y [|x [|z own]]]; try discriminate C2. cbn in C2. injection C2 as <- <-. exists [y], x. auto.
        - destruct own as [|x [|z own]]; try discriminate C2. cbn in C2. injection C2 as <-. exists [], x. auto. }
      eapply (closes_inv c o0 s _ h x []); [exact Eo|exact K|exact F|exact U|exact Ch|reflexivity|reflexivity|]. intros o. rewrite app_nil_r. exact (conj C1 Mh).
    + exists own. cbn [goto t_pc t_os t_loc t_child t_kept live app umask_ok ctl]. rewrite app_nil_r in C2. exact (conj K (conj F (conj U (conj (conj C1 C2) Ch)))).
  - destruct C as (C1 & C2). unfold closes_opt. destruct (l_dstfd (t_loc s)) as [a|] eqn:Ls.
    + cbn in C2. destruct own as [|x [|z own]]; try discriminate C2. cbn in C2. injection C2 as <-. eapply (closes_inv c o0 s _ [] x []); [reflexivity|exact K|exact F|exact U|exact Ch|reflexivity|reflexivity|]. intros o. split; [reflexivity|]. split; [discriminate|contradiction].
    + cbn in C2. destruct own; [|discriminate C2]. exists []. cbn [goto t_pc t_os t_loc t_child t_kept live app umask_ok ctl]. refine (conj K (conj F (conj U (conj (conj eq_refl _) Ch)))). split; [discriminate|contradiction].
Qed.
Lemma tinv_reach : forall c o0 s, NoDup (map e_fd (o_tab o0)) -> treach c (tinit o0) s -> tinv c o0 s.
Proof. intros c o0 s N H. induction H; [apply tinv_init; exact N|eapply tstep_inv; eassumption]. Qed.
