(** In-place formatting and the exit status: C36, C37, C57, C58. *)
From Coq Require Import Permutation.
From Verif Require Import Base FileModel.

(** ** Specification *)
(** The file in its directory: everything up to the last slash. *)
Definition in_directory (d : bytes) (p : path) : Prop := exists b, p = d ++ b /\ ~ In "/"%char b /\ (d = [] \/ exists d', d = d' ++ ["/"%char]).
(** Permissions, owner and group; set-id bits may be dropped, never gained. *)
Definition same_attrs (new old : inode) : Prop :=
  i_mode new = i_mode old /\ i_uid new = i_uid old /\ i_gid new = i_gid old /\ (i_setid new = true -> i_setid old = true).
(** A directory entry as found at the start: same inode with the same content and attributes. *)
Definition untouched (f0 f : fs) (p : path) (i : nat) : Prop := f_names f p = Some i /\ f_nodes f i = f_nodes f0 i.
(** Formatted in place. *)
Definition rewritten (c : cfg) (f0 f : fs) (p : path) (i : nat) : Prop :=
  exists dst, c_format c p (i_data (f_nodes f0 i)) = Some dst /\
    ((dst = i_data (f_nodes f0 i) /\ untouched f0 f p i) \/
     (dst <> i_data (f_nodes f0 i) /\ exists j, f_names f p = Some j /\ i_data (f_nodes f j) = dst /\ same_attrs (f_nodes f j) (f_nodes f0 i))).
Definition wf_fs (f : fs) : Prop := forall p i, f_names f p = Some i -> i < f_next f.

(** ** Names *)
Lemma path_eqb_eq : forall a b, path_eqb a b = true <-> a = b.
Proof. intros a b. unfold path_eqb. destruct (list_eq_dec ascii_dec a b); split; intros; congruence. Qed.
Lemma path_eqb_neq : forall a b, path_eqb a b = false <-> a <> b.
Proof. intros a b. unfold path_eqb. destruct (list_eq_dec ascii_dec a b); split; intros; congruence. Qed.
Lemma path_eqb_refl : forall a, path_eqb a a = true.
Proof. intros a. apply path_eqb_eq. reflexivity. Qed.
Lemma after_slash_spec : forall p d b, after_slash p = (d, b) -> p = d ++ b /\ ~ In "/"%char b /\ (d = [] \/ exists d', d = d' ++ ["/"%char]).
Proof.
  induction p as [|a p IH]; intros d b H; cbn in H.
  - injection H as <- <-. cbn. auto.
  - destruct (after_slash p) as [d1 b1] eqn:E. destruct (IH d1 b1 eq_refl) as (-> & N & D). destruct d1 as [|x d1].
    + destruct (Ascii.eqb_spec a "/") as [->|K]; injection H as <- <-; cbn.
      * split; [reflexivity|]. split; [exact N|]. right. exists []. reflexivity.
      * split; [reflexivity|]. split; [|auto]. intros [H|H]; [congruence|auto].
    + injection H as <- <-. split; [reflexivity|]. split; [exact N|]. right. destruct D as [D|(d' & ->)]; [discriminate|]. exists (a :: d'). reflexivity.
Qed.
Definition tmp_of (p tmp : path) : Prop := exists sfx, length sfx = 8 /\ ~ In "/"%char sfx /\ tmp = tmptemplate p ++ sfx.
(** The temporary file is in the directory of the file, and not the file. *)
Theorem C36_directory : forall p tmp, tmp_of p tmp -> tmp <> p /\ exists d, in_directory d p /\ in_directory d tmp.
Proof.
  intros p tmp (sfx & L & N & ->). unfold tmptemplate. destruct (after_slash p) as [d b] eqn:E. destruct (after_slash_spec p d b E) as (-> & Nb & D). split.
  - intros K. apply (f_equal (@length ascii)) in K. rewrite !app_length in K. cbn [length] in K. rewrite !app_length in K. cbn in K. lia.
  - exists d. split; [exists b; auto|]. exists ("."%char :: (b ++ s2b ".") ++ sfx). split; [rewrite <- app_assoc; reflexivity|]. split; [|exact D]. intros [K|K]; [discriminate|]. rewrite !in_app_iff in K. destruct K as [[K|[K|[]]]|K]; [auto|discriminate|auto].
Qed.
Lemma tmp_neq : forall p tmp, tmp_of p tmp -> tmp <> p.
Proof. intros p tmp H. apply (C36_directory p tmp H). Qed.

(** ** Steps: the invariant of the file at hand. *)
Definition private (f : fs) (tmp : path) (j : nat) : Prop := f_names f tmp = Some j /\ forall q, f_names f q = Some j -> q = tmp.
Definition copying (c : cfg) (f : fs) (p : path) (i : nat) (tmp : path) (j : nat) (rest : bytes) : Prop :=
  c_mode c = MInplace /\ f_names f p = Some i /\ tmp_of p tmp /\ private f tmp j /\ i <> j /\
  c_format c p (i_data (f_nodes f i)) = Some (i_data (f_nodes f j) ++ rest) /\ i_data (f_nodes f i) <> i_data (f_nodes f j) ++ rest.
Definition attrs (n : inode) := (i_mode n, i_setid n, i_uid n, i_gid n).
Definition cur_ok (c : cfg) (f : fs) (p : path) (k : pc) (ev : list event) : Prop :=
  match k with
  | Open => ev = []
  | Read i src => ev = [] /\ f_names f p = Some i
  | Format i src => ev = [] /\ f_names f p = Some i /\ src = i_data (f_nodes f i)
  | Mkstemp i dst => ev = [] /\ c_mode c = MInplace /\ f_names f p = Some i /\ c_format c p (i_data (f_nodes f i)) = Some dst /\ i_data (f_nodes f i) <> dst
  | Write i tmp j rest => ev = [] /\ copying c f p i tmp j rest
  | Stat1 i tmp j => ev = [] /\ copying c f p i tmp j []
  | Stat2 i tmp j sb => ev = [] /\ copying c f p i tmp j [] /\ sb = f_nodes f j
  | Chmod tmp j sb db => ev = [] /\ exists i, copying c f p i tmp j [] /\ sb = f_nodes f j /\ db = f_nodes f i
  | Chown tmp j sb db => ev = [] /\ exists i, copying c f p i tmp j [] /\ i_uid sb = i_uid (f_nodes f j) /\ i_gid sb = i_gid (f_nodes f j) /\ i_mode (f_nodes f j) = i_mode db /\ i_setid (f_nodes f j) = i_setid db /\ db = f_nodes f i
  | Rename tmp => ev = [] /\ exists i j, copying c f p i tmp j [] /\ same_attrs (f_nodes f j) (f_nodes f i)
  | Unlink tmp => ev <> [] /\ c_mode c = MInplace /\ tmp_of p tmp /\ exists j, private f tmp j
  | Print rest => ev = [] /\ c_mode c = MPrint
  | Ret r => (r = true <-> ev <> [])
  end.
Record inv (c : cfg) (s : state) : Prop := {
  in_wf : wf_fs (s_fs s);
  in_cur : forall p k ev, s_cur s = Some (p, k, ev) -> cur_ok c (s_fs s) p k ev;
  in_done : forall p ev r, In (p, ev, r) (s_done s) -> (r = true <-> ev <> []);
  in_err : s_error s = existsb (fun x => snd x) (s_done s)
}.
Lemma wf_set_node : forall i n f, wf_fs f -> wf_fs (set_node i n f).
Proof. intros i n f H p j K. exact (H p j K). Qed.
Lemma wf_set_none : forall p f, wf_fs f -> wf_fs (set_name p None f).
Proof. intros p f H q j K. cbn in *. destruct (path_eqb q p); [discriminate|]. apply (H q j K). Qed.
Lemma wf_set_some : forall p i f, wf_fs f -> i < f_next f -> wf_fs (set_name p (Some i) f).
Proof. intros p i f H L q j K. cbn in *. destruct (path_eqb q p); [injection K as <-; exact L|]. apply (H q j K). Qed.
Lemma copying_node : forall c f p i tmp j rest n rest', copying c f p i tmp j rest -> i_data n ++ rest' = i_data (f_nodes f j) ++ rest -> copying c (set_node j n f) p i tmp j rest'.
Proof.
  intros c f p i tmp j rest n rest' (M & Np & T & Pv & Ne & F & D) E. unfold copying. cbn [set_node f_names f_nodes]. rewrite Nat.eqb_refl. destruct (Nat.eqb_spec i j) as [K|_]; [contradiction|]. rewrite E. auto 10.
Qed.
Lemma copying_ev : forall c f p i tmp j rest (e : event), copying c f p i tmp j rest -> [e] <> [] /\ c_mode c = MInplace /\ tmp_of p tmp /\ exists j, private f tmp j.
Proof. intros c f p i tmp j rest e (M & Np & T & Pv & Ne & F & D). split; [discriminate|]. split; [exact M|]. split; [exact T|]. exists j. exact Pv. Qed.

Lemma pstep_ok : forall c s p k ev s' k' ev', wf_fs (s_fs s) -> cur_ok c (s_fs s) p k ev -> pstep c s p k ev s' k' ev' -> wf_fs (s_fs s') /\ cur_ok c (s_fs s') p k' ev'.
Proof.
  intros c s p k ev s' k' ev' W C H. destruct H; cbn [cur_ok with_fs s_fs] in *.
  - subst. auto.
  - subst. split; [auto|]. split; [discriminate|auto].
  - auto.
  - destruct C as [-> C]. auto.
  - destruct C as [-> C]. split; [auto|]. split; [discriminate|auto].
  - destruct C as [-> C]. split; [auto|]. split; [discriminate|auto].
  - destruct C as (-> & N & ->). split; [exact W|]. unfold dispatch. rewrite app_nil_r. destruct (c_mode c) eqn:M; cbn [fst snd]; [destruct (path_eqb _ dst) eqn:E|destruct (path_eqb _ dst) eqn:E|]; cbn [fst snd cur_ok]; auto.
    + split; [discriminate|congruence]. + split; [discriminate|auto]. + split; [discriminate|congruence]. + apply path_eqb_neq in E. auto.
  - destruct C as (-> & M & N & F & D). assert (T : tmp_of p (tmptemplate p ++ sfx)) by (exists sfx; auto). assert (NT := tmp_neq _ _ T). assert (L := W p i N). split.
    + intros q j K. cbn in *. destruct (path_eqb q _); [injection K as <-; lia|]. specialize (W q j K). lia.
    + split; [reflexivity|]. unfold copying, private. cbn [f_names f_nodes set_name set_node]. rewrite Nat.eqb_refl, path_eqb_refl. destruct (path_eqb p (tmptemplate p ++ sfx)) eqn:E; [apply path_eqb_eq in E; congruence|]. destruct (Nat.eqb_spec i (f_next (s_fs s))) as [K|_]; [lia|]. cbn [i_data app]. split; [exact M|]. split; [exact N|]. split; [exact T|]. split; [|split; [lia|auto]]. split; [reflexivity|]. intros q K. destruct (path_eqb q _) eqn:E2; [apply path_eqb_eq; exact E2|]. specialize (W q _ K). lia.
  - destruct C as [-> C]. split; [auto|]. split; [discriminate|auto].
  - destruct C as [-> C]. split; [apply wf_set_node; exact W|]. split; [reflexivity|]. eapply copying_node; [exact C|]. cbn [append i_data]. rewrite <- app_assoc. reflexivity.
  - destruct C as [-> C]. split; [auto|]. eapply copying_ev; exact C.
  - auto.
  - destruct C as [-> C]. auto.
  - destruct C as [-> C]. split; [auto|]. eapply copying_ev; exact C.
  - destruct C as (-> & C & ->). split; [exact W|]. split; [reflexivity|]. exists i. auto.
  - destruct C as (-> & C & ->). split; [auto|]. eapply copying_ev; exact C.
  - destruct C as (-> & i & C & -> & ->). split; [exact W|]. split; [reflexivity|]. exists i. auto 10.
  - destruct C as (-> & i & C & -> & ->). split; [apply wf_set_node; exact W|]. split; [reflexivity|]. exists i. split; [eapply copying_node; [exact C|]; reflexivity|]. cbn [set_node f_nodes]. rewrite Nat.eqb_refl. destruct C as (_ & _ & _ & _ & Ne & _). destruct (Nat.eqb_spec i j) as [K|_]; [contradiction|]. cbn. auto 10.
  - destruct C as (-> & i & C & -> & ->). split; [auto|]. eapply copying_ev; exact C.
  - destruct C as (-> & i & C & U & G & Md & Si & ->). split; [exact W|]. split; [reflexivity|]. exists i, j. split; [exact C|]. unfold same_attrs. rewrite Md, Si, <- U, <- G. auto.
  - destruct C as (-> & i & C & U & G & Md & Si & ->). split; [apply wf_set_node; exact W|]. split; [reflexivity|]. exists i, j. split; [eapply copying_node; [exact C|]; reflexivity|]. unfold same_attrs. cbn [set_node f_nodes]. rewrite Nat.eqb_refl. destruct C as (_ & _ & _ & _ & Ne & _). destruct (Nat.eqb_spec i j) as [K|_]; [contradiction|]. cbn [chown i_mode i_uid i_gid i_setid]. split; [exact Md|]. split; [reflexivity|]. split; [reflexivity|]. rewrite Si. intros K. apply andb_true_iff in K. apply K.
  - destruct C as (-> & i & C & _). split; [auto|]. eapply copying_ev; exact C.
  - destruct C as (-> & i & j' & C & A). split; [|split; [discriminate|congruence]]. apply wf_set_none. apply wf_set_some; [exact W|]. eapply W. exact H.
  - destruct C as (-> & i & j' & C & A). split; [auto|]. eapply copying_ev; exact C.
  - destruct C as (E & _). split; [apply wf_set_none; exact W|]. split; auto.
  - split; [exact W|]. split; [discriminate|auto].
  - auto.
  - destruct C as [-> C]. split; [auto|]. split; [discriminate|auto].
  - destruct C as [-> C]. split; [auto|]. split; [discriminate|congruence].
Qed.
Lemma inv_init : forall c f files, wf_fs f -> inv c (init f files).
Proof. intros c f files W. constructor; cbn; [exact W|discriminate|intros p ev r []|reflexivity]. Qed.
Lemma pstep_frame : forall c s p k ev s' k' ev', pstep c s p k ev s' k' ev' -> s_todo s' = s_todo s /\ s_done s' = s_done s /\ s_error s' = s_error s.
Proof. intros. destruct H; auto. Qed.
Lemma inv_step : forall c s s', inv c s -> step c s s' -> inv c s'.
Proof.
  intros c s s' [W C D E] H. destruct H as [s p todo H1 H2|s p k ev s1 k' ev' H1 H2|s p r ev H1].
  - constructor; cbn; auto. intros p' k ev K. injection K as <- <- <-. reflexivity.
  - destruct (pstep_ok _ _ _ _ _ _ _ _ W (C _ _ _ H1) H2) as [W' C']. destruct (pstep_frame _ _ _ _ _ _ _ _ H2) as (_ & D' & E'). constructor; cbn; [exact W'| |rewrite D'; exact D|rewrite E', D'; exact E]. intros p' k0 ev0 K. injection K as <- <- <-. exact C'.
  - constructor; cbn; [exact W|discriminate| |]. + intros p' ev' r' [K|K]; [injection K as <- <- <-; exact (C _ _ _ H1)|apply (D _ _ _ K)]. + rewrite E. apply orb_comm.
Qed.
Lemma inv_reach : forall c f files s, wf_fs f -> reach c (init f files) s -> inv c s.
Proof. intros c f files s W H. induction H; [apply inv_init; exact W|eapply inv_step; eassumption]. Qed.

(** ** Against the files found at the start. *)
Definition tmp_at (k : pc) : option path :=
  match k with Write _ t _ _ | Stat1 _ t _ | Stat2 _ t _ _ | Chmod t _ _ _ | Chown t _ _ _ | Rename t | Unlink t => Some t | _ => None end.
Definition node_at (k : pc) : option nat :=
  match k with Write _ _ j _ | Stat1 _ _ j | Stat2 _ _ j _ | Chmod _ j _ _ | Chown _ j _ _ => Some j | _ => None end.
Definition cur_files (s : state) : list path := match s_cur s with Some (p, _, _) => [p] | None => [] end.
Definition succeeded (s : state) (p : path) : Prop := exists ev, In (p, ev, false) (s_done s) \/ s_cur s = Some (p, Ret false, ev).
Definition written (c : cfg) (f0 f : fs) (p : path) (i : nat) : Prop :=
  match c_mode c with
  | MInplace => rewritten c f0 f p i
  | MDiff => f_names f p = Some i /\ c_format c p (i_data (f_nodes f0 i)) = Some (i_data (f_nodes f0 i))
  | MPrint => f_names f p = Some i
  end.
(** A temporary file that could not be removed. *)
Definition litter (s : state) (q : path) : Prop := exists p ev, (In (p, ev, true) (s_done s) \/ s_cur s = Some (p, Ret true, ev)) /\ In EUnlink ev /\ tmp_of p q.
Definition reason (c : cfg) (f0 : fs) (p : path) (e : event) : Prop :=
  forall i, f_names f0 p = Some i -> match e with
  | EFormat => c_format c p (i_data (f_nodes f0 i)) = None
  | EDiffers => c_mode c = MDiff /\ exists dst, c_format c p (i_data (f_nodes f0 i)) = Some dst /\ dst <> i_data (f_nodes f0 i)
  | EOpen | ERead => True
  | EWrite => c_mode c <> MDiff
  | _ => c_mode c = MInplace
  end.
Record since (c : cfg) (f0 : fs) (files : list path) (s : state) : Prop := {
  sn_files : files = rev (map (fun x => fst (fst x)) (s_done s)) ++ cur_files s ++ s_todo s;
  sn_next : f_next f0 <= f_next (s_fs s);
  sn_nodes : forall i, i < f_next f0 -> f_nodes (s_fs s) i = f_nodes f0 i;
  sn_tmp : forall p k ev, s_cur s = Some (p, k, ev) -> (forall t, tmp_at k = Some t -> f_names f0 t = None) /\ (forall j, node_at k = Some j -> f_next f0 <= j);
  sn_written : forall p i, f_names f0 p = Some i -> succeeded s p -> written c f0 (s_fs s) p i;
  sn_kept : forall p i, f_names f0 p = Some i -> ~ succeeded s p -> f_names (s_fs s) p = Some i;
  sn_names : forall q, f_names (s_fs s) q = f_names f0 q \/ In q files \/ (exists p k ev, s_cur s = Some (p, k, ev) /\ tmp_at k = Some q /\ tmp_of p q) \/ litter s q;
  sn_why : forall p ev k r e, (s_cur s = Some (p, k, ev) \/ In (p, ev, r) (s_done s)) -> In e ev -> reason c f0 p e
}.
Lemma written_frame : forall c f0 f f' q i, f_nodes f' i = f_nodes f i -> written c f0 f q i -> (forall j, f_names f q = Some j -> f_names f' q = Some j /\ f_nodes f' j = f_nodes f j) -> written c f0 f' q i.
Proof.
  intros c f0 f f' q i Hi H K. unfold written in *. destruct (c_mode c).
  - destruct H as [H1 H2]. destruct (K _ H1). auto.
  - destruct H as (dst & F & [[E [U1 U2]]|[E (j & N & D & A)]]); exists dst; (split; [exact F|]).
    + left. destruct (K _ U1) as [K1 K2]. split; [exact E|]. split; [exact K1|]. rewrite K2. exact U2.
    + right. split; [exact E|]. destruct (K _ N) as [K1 K2]. exists j. rewrite K2. auto.
  - destruct (K _ H). auto.
Qed.
(** Only the temporary file changes, but for the renaming. *)
Lemma pstep_keep : forall c s p k ev s' k' ev', wf_fs (s_fs s) -> cur_ok c (s_fs s) p k ev -> pstep c s p k ev s' k' ev' ->
  forall q j, f_names (s_fs s) q = Some j -> tmp_at k <> Some q -> (q = p -> k' <> Ret false) -> f_names (s_fs s') q = Some j /\ f_nodes (s_fs s') j = f_nodes (s_fs s) j.
Proof.
  intros c s p k ev s' k' ev' W C H q j N T R.
  assert (CP : forall i tmp j0 rest, copying c (s_fs s) p i tmp j0 rest -> tmp_at k = Some tmp -> forall n, f_names (set_node j0 n (s_fs s)) q = Some j /\ f_nodes (set_node j0 n (s_fs s)) j = f_nodes (s_fs s) j).
  { intros i tmp j0 rest (M & Np & Tm & [Pv1 Pv2] & _) Hk n. split; [exact N|]. cbn. destruct (Nat.eqb_spec j j0) as [->|_]; [|reflexivity]. rewrite (Pv2 q N) in T. contradiction. }
  destruct H; cbn [with_fs s_fs cur_ok] in *; auto.
  - cbn. destruct (path_eqb q _) eqn:E; [apply path_eqb_eq in E; congruence|]. split; [exact N|]. specialize (W q j N). destruct (Nat.eqb_spec j (f_next (s_fs s))); [lia|reflexivity].
  - destruct C as [_ C]. eapply CP; [exact C|reflexivity].
  - destruct C as (_ & i & C & _). eapply CP; [exact C|reflexivity].
  - destruct C as (_ & i & C & _). eapply CP; [exact C|reflexivity].
  - cbn. destruct (path_eqb q tmp) eqn:E; [apply path_eqb_eq in E; subst; cbn in T; congruence|]. destruct (path_eqb q p) eqn:E2; [apply path_eqb_eq in E2; destruct (R E2 eq_refl)|]. auto.
  - cbn. destruct (path_eqb q tmp) eqn:E; [apply path_eqb_eq in E; subst; cbn in T; congruence|]. auto.
Qed.
Lemma pstep_old : forall c s p k ev s' k' ev' n, (forall j, node_at k = Some j -> n <= j) -> n <= f_next (s_fs s) -> pstep c s p k ev s' k' ev' ->
  (forall i, i < n -> f_nodes (s_fs s') i = f_nodes (s_fs s) i) /\ f_next (s_fs s) <= f_next (s_fs s') /\ (forall j, node_at k' = Some j -> n <= j).
Proof.
  intros c s p k ev s' k' ev' n Hn Hf H. destruct H; cbn [node_at with_fs s_fs set_node set_name f_nodes f_next] in *; (split; [|split; [lia|]]); auto; try (intros; congruence).
  all: try (intros i0 Hi0; match goal with |- context [i0 =? ?a] => destruct (Nat.eqb_spec i0 a) as [->|_]; [try specialize (Hn _ eq_refl); lia|reflexivity] end).
  - intros j. unfold dispatch. destruct (c_mode c); try destruct (path_eqb src dst); discriminate.
Qed.
Lemma pstep_names : forall c s p k ev s' k' ev', cur_ok c (s_fs s) p k ev -> pstep c s p k ev s' k' ev' -> forall q,
  (f_names (s_fs s') q = f_names (s_fs s) q /\ (tmp_at k = Some q -> tmp_at k' = Some q \/ (k' = Ret true /\ In EUnlink ev' /\ tmp_of p q))) \/
  q = p \/ (tmp_at k' = Some q /\ tmp_of p q) \/ (tmp_at k = Some q /\ f_names (s_fs s') q = None).
Proof.
  intros c s p k ev s' k' ev' C H q. destruct H; cbn [tmp_at with_fs s_fs cur_ok set_node f_names] in *; try (left; split; [reflexivity|intros K; first [discriminate K|left; exact K]]).
  - cbn [set_name f_names]. destruct (path_eqb q (tmptemplate p ++ sfx)) eqn:E; [apply path_eqb_eq in E; right; right; left; split; [congruence|exists sfx; auto]|]. left. split; [reflexivity|discriminate].
  - cbn [set_name f_names]. destruct (path_eqb q tmp) eqn:E; [apply path_eqb_eq in E; right; right; right; split; congruence|]. destruct (path_eqb q p) eqn:E2; [apply path_eqb_eq in E2; auto|]. left. split; [reflexivity|]. intros K. injection K as ->. rewrite path_eqb_refl in E. discriminate.
  - cbn [set_name f_names]. destruct (path_eqb q tmp) eqn:E; [apply path_eqb_eq in E; right; right; right; split; congruence|]. left. split; [reflexivity|]. intros K. injection K as ->. rewrite path_eqb_refl in E. discriminate.
  - left. split; [reflexivity|]. intros K. right. split; [reflexivity|]. split; [left; reflexivity|]. injection K as <-. apply C.
Qed.
Lemma pstep_tmp : forall c s p k ev s' k' ev', pstep c s p k ev s' k' ev' -> forall t, tmp_at k' = Some t -> tmp_at k = Some t \/ f_names (s_fs s) t = None.
Proof.
  intros c s p k ev s' k' ev' H t. destruct H; cbn [tmp_at]; intros K; try discriminate; auto.
  - unfold dispatch in K. destruct (c_mode c); try destruct (path_eqb src dst); discriminate.
  - injection K as <-. auto.
Qed.
(** The positions before the file is renamed refer to the file as found at the start. *)
Lemma pstep_written : forall c s f0 p i k ev s' ev', f_names f0 p = Some i -> f_names (s_fs s) p = Some i -> f_nodes (s_fs s) i = f_nodes f0 i -> cur_ok c (s_fs s) p k ev -> pstep c s p k ev s' (Ret false) ev' -> written c f0 (s_fs s') p i.
Proof.
  intros c s f0 p i k ev s' ev' N0 N D C H. remember (Ret false) as r eqn:Er. destruct H; try discriminate Er; cbn [cur_ok with_fs s_fs] in *.
  - destruct C as (_ & N' & ->). assert (i0 = i) as -> by congruence. unfold written, dispatch in *. rewrite <- D. destruct (c_mode c); [destruct (path_eqb _ dst) eqn:E|destruct (path_eqb _ dst) eqn:E|]; try discriminate Er.
    + apply path_eqb_eq in E. split; [exact N|]. congruence.
    + apply path_eqb_eq in E. exists dst. rewrite <- D. split; [assumption|]. left. split; [congruence|]. split; assumption.
  - destruct C as (_ & i0 & j0 & (M & N' & T & [P1 P2] & Ne & F & Df) & A). assert (i0 = i) as -> by congruence. assert (j0 = j) as -> by congruence. unfold written. rewrite M. rewrite app_nil_r in *. exists (i_data (f_nodes (s_fs s) j)). rewrite <- D. split; [exact F|]. right. split; [congruence|]. exists j. cbn [set_name f_names f_nodes]. assert (NT := tmp_neq _ _ T). destruct (path_eqb p tmp) eqn:E; [apply path_eqb_eq in E; congruence|]. rewrite path_eqb_refl. auto.
  - destruct C as [_ M]. unfold written. rewrite M. exact N.
Qed.
Lemma pstep_why : forall c s f0 p k ev s' k' ev', (forall i, f_names f0 p = Some i -> f_names (s_fs s) p = Some i /\ f_nodes (s_fs s) i = f_nodes f0 i) -> cur_ok c (s_fs s) p k ev -> pstep c s p k ev s' k' ev' ->
  forall e, In e ev' -> In e ev \/ reason c f0 p e.
Proof.
  intros c s f0 p k ev s' k' ev' H0 C H e He. destruct H; auto; try (destruct He as [<-|He]; [right; intros i1 Hi1; exact I|auto]).
  all: try (destruct He as [<-|He]; [right; intros i1 Hi1; cbn in C; unfold copying in C; try discriminate; decompose [and ex] C; congruence|auto]).
  - destruct He as [<-|He]; [|auto]. right. intros i1 Hi1. destruct (H0 _ Hi1) as [N D]. cbn in C. destruct C as (_ & N' & ->). assert (i1 = i) as -> by congruence. rewrite <- D. assumption.
  - apply in_app_or in He. destruct He as [He|He]; [|auto]. right. intros i1 Hi1. destruct (H0 _ Hi1) as [N D]. cbn in C. destruct C as (_ & N' & ->). assert (i1 = i) as -> by congruence. unfold dispatch in He. destruct (c_mode c) eqn:M; [destruct (path_eqb _ dst) eqn:E|destruct (path_eqb _ dst) eqn:E|]; try destruct He as [<-|[]]; try destruct He. split; [reflexivity|]. rewrite <- D. exists dst. split; [assumption|]. apply path_eqb_neq in E. congruence.
Qed.
Lemma NoDup_mid : forall (a b : list path) p, NoDup (a ++ p :: b) -> ~ In p a /\ ~ In p b.
Proof. intros a b p H. apply NoDup_remove_2 in H. rewrite in_app_iff in H. auto. Qed.
Lemma since_init : forall c f files, since c f files (init f files).
Proof.
  intros c f files. constructor; cbn; auto; try discriminate.
  - intros p i _ (ev & [[]|K]); discriminate.
  - intros p ev k r e [K|[]]; discriminate.
Qed.
Lemma since_step : forall c f0 files s s', NoDup files -> wf_fs f0 -> inv c s -> since c f0 files s -> step c s s' -> since c f0 files s'.
Proof.
  intros c f0 files s s' ND W0 I [FI NX OLD TM WR KE NA WH] H. destruct H as [s p todo H1 H2|s p k ev s1 k' ev' H1 H2|s p r ev H1].
  - constructor; cbn; auto.
    + rewrite FI. unfold cur_files. rewrite H1, H2. reflexivity.
    + intros p' k ev K. injection K as <- <- <-. split; discriminate.
    + intros q i Hq (ev & [K|K]); [|discriminate]. apply WR; [exact Hq|]. exists ev. auto.
    + intros q i Hq K. apply KE; [exact Hq|]. intros (ev & [K2|K2]); [|congruence]. apply K. exists ev. auto.
    + intros q. destruct (NA q) as [K|[K|[(a & b & d & K & _)|(a & b & [K|K] & K3)]]]; auto; try congruence. right. right. right. exists a, b. auto.
    + intros p' ev k r e [K|K] He; [injection K as <- <- <-; destruct He|]. apply (WH p' ev k r e); auto.
  - destruct (pstep_frame _ _ _ _ _ _ _ _ H2) as (E1 & E2 & E3). assert (C := in_cur _ _ I _ _ _ H1). destruct (TM _ _ _ H1) as [TM1 TM2]. assert (W := in_wf _ _ I).
    assert (NS : ~ succeeded s p).
    { intros (ev0 & [K|K]); [|rewrite H1 in K; injection K as -> ->; inversion H2]. rewrite FI in ND. unfold cur_files in ND. rewrite H1 in ND. apply NoDup_mid in ND. destruct ND as [ND _]. apply ND. rewrite <- in_rev. apply in_map_iff. exists (p, ev0, false). auto. }
    assert (P0 : forall i, f_names f0 p = Some i -> f_names (s_fs s) p = Some i /\ f_nodes (s_fs s) i = f_nodes f0 i). { intros i Hi. split; [apply KE; assumption|]. apply OLD. apply (W0 p i Hi). }
    destruct (pstep_old _ _ _ _ _ _ _ _ (f_next f0) TM2 NX H2) as (O1 & O2 & O3).
    assert (OLD' : forall i, i < f_next f0 -> f_nodes (s_fs s1) i = f_nodes f0 i). { intros i Hi. rewrite O1 by exact Hi. apply OLD. exact Hi. }
    assert (SU : forall q, succeeded (at_pc s1 p k' ev') q -> succeeded s q \/ (q = p /\ k' = Ret false)). { intros q (e & [K|K]); cbn in K; [left; exists e; left; rewrite <- E2; exact K|]. injection K as <- -> _. auto. }
    assert (SU' : forall q, succeeded s q -> succeeded (at_pc s1 p k' ev') q). { intros q (e & [K|K]); [exists e; left; cbn; rewrite E2; exact K|]. rewrite H1 in K. injection K as -> -> ->. inversion H2. }
    constructor; cbn; auto.
    + rewrite E1, E2. unfold cur_files in FI. rewrite H1 in FI. exact FI.
    + lia.
    + intros p' k0 ev0 K. injection K as <- <- <-. split; [|exact O3]. intros t Ht. destruct (pstep_tmp _ _ _ _ _ _ _ _ H2 t Ht) as [K|K]; [apply TM1; exact K|]. destruct (f_names f0 t) as [i|] eqn:Ei; [|reflexivity]. exfalso.
      assert (NS' : ~ succeeded s t). { intros K2. specialize (WR t i Ei K2). unfold written, rewritten, untouched in WR. destruct (c_mode c); [destruct WR; congruence| |congruence]. destruct WR as (d & _ & [[_ [K3 _]]|[_ (j & K3 & _)]]); congruence. }
      rewrite (KE t i Ei NS') in K. discriminate.
    + intros q i Hq Sq. destruct (SU q Sq) as [K|[-> ->]].
      * apply (written_frame c f0 (s_fs s)); [rewrite OLD' by (apply (W0 q i Hq)); rewrite OLD by (apply (W0 q i Hq)); reflexivity|apply WR; assumption|]. intros j Hj. eapply pstep_keep; [exact W|exact C|exact H2|exact Hj| |].
        -- intros T. rewrite (TM1 _ T) in Hq. discriminate.
        -- intros ->. contradiction.
      * destruct (P0 i Hq) as [A B]. eapply pstep_written; eassumption.
    + intros q i Hq Sq. assert (NSq : ~ succeeded s q) by (intros K; apply Sq; apply SU'; exact K). eapply (pstep_keep c s p k ev s1 k' ev'); [exact W|exact C|exact H2|apply KE; assumption| |].
      * intros T. rewrite (TM1 _ T) in Hq. discriminate.
      * intros -> ->. apply Sq. exists ev'. right. reflexivity.
    + intros q. destruct (pstep_names _ _ _ _ _ _ _ _ C H2 q) as [[K1 K2]|[->|[[K T]|[K1 K2]]]].
      * rewrite K1. destruct (NA q) as [K|[K|[(a & b & d & K & Kb & Kt)|(a & b & [K|K] & Ku)]]]; auto.
        -- rewrite H1 in K. injection K as <- <- <-. destruct (K2 Kb) as [Kx|(-> & Ku & _)].
           ++ right. right. left. exists p, k', ev'. auto.
           ++ right. right. right. exists p, ev'. cbn. auto.
        -- right. right. right. exists a, b. cbn. rewrite E2. auto.
        -- rewrite H1 in K. injection K as -> -> ->. inversion H2.
      * right. left. rewrite FI. unfold cur_files. rewrite H1. apply in_or_app. right. left. reflexivity.
      * right. right. left. exists p, k', ev'. auto.
      * left. rewrite K2. symmetry. apply TM1. exact K1.
    + intros p' ev0 k0 r e [K|K] He; [|rewrite E2 in K; apply (WH p' ev0 k0 r e); auto]. injection K as <- <- <-. destruct (pstep_why _ _ f0 _ _ _ _ _ _ P0 C H2 e He) as [K|K]; [|exact K]. apply (WH p ev k r e); auto.
  - assert (SU : forall q, succeeded {| s_fs := s_fs s; s_out := s_out s; s_todo := s_todo s; s_cur := None; s_done := (p, ev, r) :: s_done s; s_error := s_error s || r |} q <-> succeeded s q).
    { intros q. split; intros (e & [K|K]); cbn in *; try discriminate.
      - destruct K as [K|K]; [exists ev; right; congruence|exists e; left; exact K].
      - exists e. left. right. exact K.
      - rewrite H1 in K. injection K as -> -> ->. exists e. left. left. reflexivity. }
    constructor; cbn; auto; try discriminate.
    + rewrite FI. unfold cur_files. rewrite H1. rewrite <- app_assoc. reflexivity.
    + intros q i Hq Sq. apply WR; [exact Hq|]. apply SU. exact Sq.
    + intros q i Hq Sq. apply KE; [exact Hq|]. intros K. apply Sq. apply SU. exact K.
    + intros q. destruct (NA q) as [K|[K|[(a & b & d & K & Kb & _)|(a & b & [K|K] & Ku)]]]; auto.
      * rewrite H1 in K. injection K as <- <- <-. discriminate.
      * right. right. right. exists a, b. cbn. auto.
      * rewrite H1 in K. injection K as -> -> ->. right. right. right. exists a, b. cbn. auto.
    + intros p' ev0 k0 r0 e [K|[K|K]] He; [discriminate| |apply (WH p' ev0 k0 r0 e); auto]. injection K as <- <- <-. apply (WH p ev (Ret r) r e); auto.
Qed.
Lemma since_reach : forall c f files s, NoDup files -> wf_fs f -> reach c (init f files) s -> since c f files s.
Proof. intros c f files s ND W H. induction H; [apply since_init|]. eapply since_step; try eassumption. eapply inv_reach; eassumption. Qed.

(** ** C36 *)
Lemma succeeded_dec : forall s p, succeeded s p \/ ~ succeeded s p.
Proof.
  intros s p. assert (D : (exists ev, In (p, ev, false) (s_done s)) \/ ~ (exists ev, In (p, ev, false) (s_done s))).
  { induction (s_done s) as [|[[q e] r] l IH]; [right; intros (ev & [])|]. destruct IH as [(ev & K)|N]; [left; exists ev; right; exact K|]. destruct r; [|destruct (list_eq_dec ascii_dec q p) as [->|Ne]].
    - right. intros (ev & [K|K]); [discriminate|]. apply N. exists ev. exact K.
    - left. exists e. left. reflexivity.
    - right. intros (ev & [K|K]); [congruence|]. apply N. exists ev. exact K. }
  destruct D as [(ev & K)|N]; [left; exists ev; auto|]. destruct (s_cur s) as [[[q k] e]|] eqn:E.
  - destruct (list_eq_dec ascii_dec q p) as [->|Ne].
    + destruct k; try (right; intros (ev & [K|K]); [apply N; exists ev; exact K|congruence]). destruct failed; [right; intros (ev & [K|K]); [apply N; exists ev; exact K|congruence]|left; exists e; auto].
    + right. intros (ev & [K|K]); [apply N; exists ev; exact K|congruence].
  - right. intros (ev & [K|K]); [apply N; exists ev; exact K|congruence].
Qed.
Lemma succeeded_in : forall c f0 files s p, since c f0 files s -> succeeded s p -> In p files.
Proof.
  intros c f0 files s p S (ev & [K|K]); rewrite (sn_files _ _ _ _ S); apply in_or_app; [left; rewrite <- in_rev; apply in_map_iff; exists (p, ev, false); auto|]. right. unfold cur_files. rewrite K. left. reflexivity.
Qed.
(** At every point a file that was there is as it was, or it is one of those to be formatted,
    in place, and is as formatted. *)
Theorem C36_atomic : forall c f0 files s p i, wf_fs f0 -> NoDup files -> reach c (init f0 files) s -> f_names f0 p = Some i ->
  untouched f0 (s_fs s) p i \/ (c_mode c = MInplace /\ In p files /\ rewritten c f0 (s_fs s) p i).
Proof.
  intros c f0 files s p i W ND R N. assert (S := since_reach _ _ _ _ ND W R). assert (D := sn_nodes _ _ _ _ S i (W p i N)). destruct (succeeded_dec s p) as [K|K].
  - assert (In p files) by (eapply succeeded_in; eassumption). assert (Wr := sn_written _ _ _ _ S p i N K). unfold written in Wr. destruct (c_mode c); [left|right|left]; unfold untouched; intuition.
  - left. split; [apply (sn_kept _ _ _ _ S); assumption|exact D].
Qed.
(** In terms of contents. *)
Theorem C36_content : forall c f0 files s p old, wf_fs f0 -> NoDup files -> reach c (init f0 files) s -> content f0 p = Some old ->
  content (s_fs s) p = Some old \/ exists new, c_format c p old = Some new /\ content (s_fs s) p = Some new.
Proof.
  intros c f0 files s p old W ND R C. unfold content in *. destruct (f_names f0 p) as [i|] eqn:N; [|discriminate]. injection C as <-. destruct (C36_atomic _ _ _ _ _ _ W ND R N) as [[A B]|(_ & _ & dst & F & [[_ [A B]]|[_ (j & A & B & _)]])]; rewrite A; [left; rewrite B; reflexivity|left; rewrite B; reflexivity|]. right. exists dst. rewrite B. auto.
Qed.
(** Step by step, whatever the files given: the content of a file that is not the temporary
    file changes at once, from any content to the formatted one. *)
Theorem C36_step : forall c f0 files s s' p old, wf_fs f0 -> reach c (init f0 files) s -> step c s s' -> content (s_fs s) p = Some old ->
  (forall q k ev, s_cur s = Some (q, k, ev) -> tmp_at k <> Some p) ->
  content (s_fs s') p = Some old \/ (exists new, c_format c p old = Some new /\ content (s_fs s') p = Some new).
Proof.
  intros c f0 files s s' p old W R H C T. assert (I := inv_reach _ _ _ _ W R). destruct H as [s q todo H1 H2|s q k ev s1 k' ev' H1 H2|s q r ev H1]; auto.
  assert (Cu := in_cur _ _ I _ _ _ H1). unfold content in *. cbn [at_pc s_fs]. destruct (f_names (s_fs s) p) as [i|] eqn:N; [|discriminate]. injection C as <-.
  assert (KK : (p = q -> k' <> Ret false) -> (match f_names (s_fs s1) p with Some i0 => Some (i_data (f_nodes (s_fs s1) i0)) | None => None end) = Some (i_data (f_nodes (s_fs s) i))).
  { intros Q. destruct (pstep_keep _ _ _ _ _ _ _ _ (in_wf _ _ I) Cu H2 p i N (T _ _ _ H1) Q) as [-> ->]. reflexivity. }
  destruct (list_eq_dec ascii_dec p q) as [->|Ne]; [|left; apply KK; contradiction].
  remember k' as k1 eqn:Ek in KK. assert (Er : k' = Ret false \/ k' <> Ret false) by (destruct k' as [| | | | | | | | | | | |[|]]; try (right; congruence); left; reflexivity). destruct Er as [Er|Er]; [|left; apply KK; congruence]. rewrite Er in H2.
  assert (Wr := pstep_written c s (s_fs s) q i k ev s1 ev' N N eq_refl Cu H2). unfold written in Wr. destruct (c_mode c).
  - left. destruct Wr as [Wr _]. rewrite Wr. inversion H2; subst; try reflexivity.
  - destruct Wr as (dst & F & [[E [A B]]|[E (j & A & B & _)]]); rewrite A; [left; rewrite B; reflexivity|]. right. exists dst. rewrite B. auto.
  - left. rewrite Wr. inversion H2; subst; reflexivity.
Qed.
(** Nothing is written if nothing changes. *)
Theorem C36_nothing : forall c f0 files s p i, wf_fs f0 -> NoDup files -> reach c (init f0 files) s -> f_names f0 p = Some i ->
  c_format c p (i_data (f_nodes f0 i)) = Some (i_data (f_nodes f0 i)) -> untouched f0 (s_fs s) p i.
Proof.
  intros c f0 files s p i W ND R N F. destruct (C36_atomic _ _ _ _ _ _ W ND R N) as [A|(_ & _ & dst & F' & [[_ A]|[E _]])]; auto. congruence.
Qed.
(** How it ends: as formatted if it succeeded, as it was if not. *)
Theorem C36_result : forall c f0 files s p ev r i, wf_fs f0 -> NoDup files -> reach c (init f0 files) s -> c_mode c = MInplace -> In (p, ev, r) (s_done s) -> f_names f0 p = Some i ->
  if r then untouched f0 (s_fs s) p i else rewritten c f0 (s_fs s) p i.
Proof.
  intros c f0 files s p ev r i W ND R M D N. assert (S := since_reach _ _ _ _ ND W R). destruct r.
  - split; [|apply (sn_nodes _ _ _ _ S); apply (W p i N)]. apply (sn_kept _ _ _ _ S); [exact N|]. intros K.
    assert (X : NoDup (map (fun x : path * list event * bool => fst (fst x)) (s_done s) ++ cur_files s)). { rewrite (sn_files _ _ _ _ S), app_assoc in ND. apply NoDup_rev in ND. rewrite rev_app_distr in ND. assert (X : forall (a b : list path), NoDup (a ++ b) -> NoDup b) by (induction a; cbn; intros b Hb; [exact Hb|inversion Hb; auto]). apply X in ND. rewrite rev_app_distr, rev_involutive in ND. eapply Permutation_NoDup; [apply Permutation_app_comm|]. unfold cur_files in *. destruct (s_cur s) as [[[q k] e]|]; exact ND. }
    destruct K as (e & [K|K]).
    + assert (Y : forall l, NoDup (map (fun x : path * list event * bool => fst (fst x)) l) -> In (p, ev, true) l -> In (p, e, false) l -> False).
      { induction l as [|a l IH]; cbn; intros Hl Ha Hb; [destruct Ha|]. inversion Hl as [|? ? Hn Hl']; subst. destruct Ha as [->|Ha], Hb as [Hb|Hb]; [discriminate| | |exact (IH Hl' Ha Hb)]; apply Hn; apply in_map_iff; [exists (p, e, false)|subst a; exists (p, ev, true)]; auto. }
      apply (Y (s_done s)); auto. assert (Z : forall (a b : list path), NoDup (a ++ b) -> NoDup a). { induction a; cbn; intros b Hb; [constructor|]. inversion Hb as [|? ? Hn Hb']; subst. constructor; [intros Q; apply Hn; apply in_or_app; auto|eapply IHa; exact Hb']. } eapply Z. exact X.
    + unfold cur_files in X. rewrite K in X. apply NoDup_mid in X. destruct X as [X _]. apply X. apply in_map_iff. exists (p, ev, true). auto.
  - assert (Wr := sn_written _ _ _ _ S p i N (ex_intro _ ev (or_introl D))). unfold written in Wr. rewrite M in Wr. exact Wr.
Qed.
(** Names that are not given are left alone, but for the temporary file of the file at hand
    and those that could not be removed. *)
Theorem C36_leftovers : forall c f0 files s q, wf_fs f0 -> NoDup files -> reach c (init f0 files) s -> ~ In q files ->
  f_names (s_fs s) q = f_names f0 q \/ (exists p k ev, s_cur s = Some (p, k, ev) /\ tmp_of p q) \/ (exists p ev, In (p, ev, true) (s_done s) /\ In EUnlink ev /\ tmp_of p q).
Proof.
  intros c f0 files s q W ND R Nq. assert (S := since_reach _ _ _ _ ND W R). destruct (sn_names _ _ _ _ S q) as [K|[K|[(p & k & ev & A & _ & B)|(p & ev & [K|K] & A & B)]]]; [auto|contradiction| | |].
  - right. left. exists p, k, ev. auto.
  - right. right. exists p, ev. auto.
  - right. left. exists p, (Ret true), ev. auto.
Qed.
Theorem C36_cleanup : forall c f0 files s q, wf_fs f0 -> NoDup files -> reach c (init f0 files) s -> finished s -> ~ In q files ->
  (forall p ev, In (p, ev, true) (s_done s) -> ~ In EUnlink ev) -> f_names (s_fs s) q = f_names f0 q.
Proof.
  intros c f0 files s q W ND R [F _] Nq U. destruct (C36_leftovers _ _ _ _ q W ND R Nq) as [K|[(p & k & ev & A & _)|(p & ev & A & B & _)]]; [exact K|congruence|]. destruct (U p ev A B).
Qed.

(** ** C37 *)
Lemma files_order : forall c f0 files s, reach c (init f0 files) s -> files = rev (map (fun x => fst (fst x)) (s_done s)) ++ cur_files s ++ s_todo s.
Proof.
  intros c f0 files s R. induction R as [|s s' R IH H]; [reflexivity|]. destruct H as [s p todo H1 H2|s p k ev s1 k' ev' H1 H2|s p r ev H1]; unfold cur_files in *; cbn.
  - rewrite IH, H1, H2. reflexivity.
  - destruct (pstep_frame _ _ _ _ _ _ _ _ H2) as (-> & -> & _). rewrite H1 in IH. exact IH.
  - rewrite H1 in IH. rewrite IH at 1. rewrite <- app_assoc. reflexivity.
Qed.
(** All files are handled, in order, whatever happens to some; the status is 1 if and only
    if something went wrong with one. *)
Theorem C37_exit : forall c f0 files s, wf_fs f0 -> reach c (init f0 files) s -> finished s ->
  files = rev (map (fun x => fst (fst x)) (s_done s)) /\
  (exit_status s = 1 <-> exists p ev r e, In (p, ev, r) (s_done s) /\ In e ev) /\
  (exit_status s = 0 <-> forall p ev r, In (p, ev, r) (s_done s) -> ev = []).
Proof.
  intros c f0 files s W R [F1 F2]. assert (I := inv_reach _ _ _ _ W R). assert (O := files_order _ _ _ _ R). unfold cur_files in O. rewrite F1, F2, !app_nil_r in O. split; [exact O|].
  assert (EQ : s_error s = true <-> exists p ev r e, In (p, ev, r) (s_done s) /\ In e ev).
  { rewrite (in_err _ _ I), existsb_exists. split.
    - intros ([[p ev] r] & K & Kr). cbn in Kr. subst r. destruct ev as [|e ev]; [destruct (proj1 (in_done _ _ I _ _ _ K) eq_refl eq_refl)|]. exists p, (e :: ev), true, e. split; [exact K|left; reflexivity].
    - intros (p & ev & r & e & K & Ke). exists (p, ev, r). split; [exact K|]. cbn. apply (in_done _ _ I _ _ _ K). intros ->. destruct Ke. }
  unfold exit_status. destruct (s_error s) eqn:E.
  - split; [split; [intros _; apply EQ; reflexivity|auto]|]. split; [discriminate|]. intros K. destruct (proj1 EQ eq_refl) as (p & ev & r & e & A & B). rewrite (K _ _ _ A) in B. destruct B.
  - split; [split; [discriminate|]; intros K; apply EQ in K; discriminate|]. split; [|auto]. intros _ p ev r K. destruct ev as [|e ev]; [reflexivity|]. assert (X : false = true) by (apply EQ; exists p, (e :: ev), r, e; split; [exact K|left; reflexivity]). discriminate.
Qed.
(** Looking for differences only: a file that can be read counts if and only if formatting
    it fails or changes it. *)
Theorem C37_diff : forall c f0 files s p ev r i, wf_fs f0 -> NoDup files -> reach c (init f0 files) s -> c_mode c = MDiff -> In (p, ev, r) (s_done s) -> f_names f0 p = Some i -> ~ In EOpen ev -> ~ In ERead ev ->
  (r = true <-> c_format c p (i_data (f_nodes f0 i)) <> Some (i_data (f_nodes f0 i))).
Proof.
  intros c f0 files s p ev r i W ND R M D N No Nr. assert (I := inv_reach _ _ _ _ W R). assert (S := since_reach _ _ _ _ ND W R). destruct r.
  - split; [|reflexivity]. intros _. assert (X := proj1 (in_done _ _ I _ _ _ D) eq_refl). destruct ev as [|e ev]; [congruence|]. assert (Wy := sn_why _ _ _ _ S p (e :: ev) Open true e (or_intror D) (or_introl eq_refl) i N). destruct e; try congruence.
    + destruct No. left. reflexivity. + destruct Nr. left. reflexivity. + destruct Wy as (_ & dst & A & B). congruence.
  - split; [discriminate|]. intros K. destruct K. assert (Wr := sn_written _ _ _ _ S p i N (ex_intro _ ev (or_introl D))). unfold written in Wr. rewrite M in Wr. apply Wr.
Qed.
(** Without -i nothing is changed. *)
Lemma other_modes : forall c f0 files s, wf_fs f0 -> reach c (init f0 files) s -> c_mode c <> MInplace -> s_fs s = f0.
Proof.
  intros c f0 files s W R M. induction R as [|s s' R IH H]; [reflexivity|]. assert (I := inv_reach _ _ _ _ W R). destruct H as [s p todo H1 H2|s p k ev s1 k' ev' H1 H2|s p r ev H1]; auto. assert (C := in_cur _ _ I _ _ _ H1). cbn. destruct H2; auto; cbn [with_fs s_fs cur_ok] in *; unfold copying in C; decompose [and ex] C; contradiction.
Qed.
Theorem C36_readonly : forall c f0 files s, wf_fs f0 -> reach c (init f0 files) s -> c_mode c <> MInplace -> s_fs s = f0.
Proof. exact other_modes. Qed.

(** ** C57: mode, owner and group are kept. *)
Theorem C57_attributes : forall c f0 files s p ev i, wf_fs f0 -> NoDup files -> reach c (init f0 files) s -> c_mode c = MInplace -> In (p, ev, false) (s_done s) -> f_names f0 p = Some i ->
  exists j, f_names (s_fs s) p = Some j /\ same_attrs (f_nodes (s_fs s) j) (f_nodes f0 i).
Proof.
  intros c f0 files s p ev i W ND R M D N. destruct (C36_result _ _ _ _ _ _ _ _ W ND R M D N) as (dst & _ & [[_ [A B]]|[_ (j & A & _ & B)]]); [|exists j; auto]. exists i. rewrite B. split; [exact A|]. unfold same_attrs. auto.
Qed.

(** ** C58: what is written to standard output. *)
Definition formatted (c : cfg) (f0 : fs) (p : path) (o : bytes) : Prop := exists src, content f0 p = Some src /\ c_format c p src = Some o.
(** All of it if it succeeded; otherwise nothing, or a part if writing failed. *)
Definition printed (c : cfg) (f0 : fs) (x : path * list event * bool) (o : bytes) : Prop :=
  match x with
  | (p, ev, false) => formatted c f0 p o
  | (p, ev, true) => o = [] \/ (In EWrite ev /\ exists rest, formatted c f0 p (o ++ rest))
  end.
Definition print_cur (c : cfg) (f0 : fs) (s : state) (o : bytes) : Prop :=
  match s_cur s with
  | Some (p, Print rest, ev) => formatted c f0 p (o ++ rest)
  | Some (p, Ret r, ev) => printed c f0 (p, ev, r) o
  | _ => o = []
  end.
Lemma out_reach : forall c f0 files s, wf_fs f0 -> reach c (init f0 files) s -> c_mode c = MPrint ->
  exists outs o, s_out s = concat (rev outs) ++ o /\ Forall2 (printed c f0) (s_done s) outs /\ print_cur c f0 s o.
Proof.
  intros c f0 files s W R M. assert (M' : c_mode c <> MInplace) by congruence. induction R as [|s s' R IH H].
  - exists [], []. cbn. split; [reflexivity|]. split; constructor.
  - destruct IH as (outs & o & E & F & P). assert (I := inv_reach _ _ _ _ W R). assert (FS := other_modes _ _ _ _ W R M'). destruct H as [s p todo H1 H2|s p k ev s1 k' ev' H1 H2|s p r ev H1].
    + exists outs, o. split; [exact E|]. split; [exact F|]. unfold print_cur in *. rewrite H1 in P. exact P.
    + assert (C := in_cur _ _ I _ _ _ H1). destruct (pstep_frame _ _ _ _ _ _ _ _ H2) as (_ & D & _). unfold print_cur in *. rewrite H1 in P. cbn [at_pc s_cur s_done s_out]. rewrite D.
      destruct H2; cbn [cur_ok with_fs s_out] in *; try (unfold copying in C; decompose [and ex] C; congruence); try (exists outs, o; split; [exact E|]; split; [exact F|]; cbn; auto; fail).
      * exists outs, o. split; [exact E|]. split; [exact F|]. unfold dispatch. rewrite M. cbn. subst o. destruct C as (_ & N & ->). exists (i_data (f_nodes (s_fs s) i)). split; [|assumption]. unfold content. rewrite <- FS, N. reflexivity.
      * exists outs, (o ++ a). split; [rewrite E, app_assoc; reflexivity|]. split; [exact F|]. rewrite <- app_assoc. exact P.
      * exists outs, o. split; [exact E|]. split; [exact F|]. right. split; [left; reflexivity|]. exists rest. exact P.
      * exists outs, o. split; [exact E|]. split; [exact F|]. rewrite app_nil_r in P. exact P.
    + exists (o :: outs), []. unfold print_cur in *. rewrite H1 in P. cbn [s_cur s_done s_out]. split; [|split; [constructor; assumption|reflexivity]]. rewrite E. cbn [rev]. rewrite concat_app. cbn [concat]. rewrite !app_nil_r. reflexivity.
Qed.
Lemma Forall2_rev' : forall (A B : Type) (R : A -> B -> Prop) l l', Forall2 R l l' -> Forall2 R (rev l) (rev l').
Proof. intros A B R l l' H. induction H; cbn; [constructor|]. apply Forall2_app; [exact IHForall2|]. constructor; [exact H|constructor]. Qed.
(** The formatted files in the order given, one after the other. *)
Theorem C58_output : forall c f0 files s, wf_fs f0 -> reach c (init f0 files) s -> c_mode c = MPrint -> finished s ->
  exists outs, s_out s = concat outs /\ Forall2 (printed c f0) (rev (s_done s)) outs.
Proof.
  intros c f0 files s W R M [F1 F2]. destruct (out_reach _ _ _ _ W R M) as (outs & o & E & F & P). unfold print_cur in P. rewrite F1 in P. subst o. exists (rev outs). split; [rewrite E; apply app_nil_r|]. apply Forall2_rev'. exact F.
Qed.
Theorem C58_success : forall c f0 files s, wf_fs f0 -> reach c (init f0 files) s -> c_mode c = MPrint -> finished s -> exit_status s = 0 ->
  exists outs, s_out s = concat outs /\ Forall2 (formatted c f0) files outs.
Proof.
  intros c f0 files s W R M F X. destruct (C58_output _ _ _ _ W R M F) as (outs & E & FA). exists outs. split; [exact E|]. assert (I := inv_reach _ _ _ _ W R). destruct (C37_exit _ _ _ _ W R F) as (O & _ & Z). rewrite O. assert (Z' := proj1 Z X).
  rewrite <- map_rev. assert (Al : forall p ev r, In (p, ev, r) (rev (s_done s)) -> r = false). { intros p ev r K. rewrite <- in_rev in K. destruct r; [|reflexivity]. destruct (proj1 (in_done _ _ I _ _ _ K) eq_refl (Z' _ _ _ K)). }
  clear -FA Al. induction FA as [|[[p ev] r] o l l' H FA IH]; [constructor|]. cbn [map fst]. constructor; [|apply IH; intros p' ev' r' K; apply (Al p' ev'); right; exact K]. rewrite (Al p ev r (or_introl eq_refl)) in H. exact H.
Qed.

(** ** A run, and what is not guaranteed. *)
Definition ex_p : path := s2b "d/f.c".
Definition ex_fs : fs := Fs (fun q => if path_eqb q ex_p then Some 0 else None) (fun i => if i =? 0 then Inode (s2b "int  x;") 420 true 7 7 else Inode [] 0 false 0 0) 1.
Definition ex_cfg : cfg := Cfg MInplace (fun _ _ => Some (s2b "int x;")).
Definition ex_tmp : path := s2b "d/.f.c.abcdefgh".
Lemma ex_wf : wf_fs ex_fs.
Proof. intros q i H. unfold ex_fs in *. cbn [f_names f_next] in *. destruct (path_eqb q ex_p); [|discriminate]. injection H as <-. lia. Qed.
Lemma reach_trans : forall c a b d, reach c a b -> reach c b d -> reach c a d.
Proof. intros c a b d H1 H2. induction H2; [exact H1|]. eapply R_step; eassumption. Qed.
Lemma one : forall c s p k ev s' k' ev', s_cur s = Some (p, k, ev) -> pstep c s p k ev s' k' ev' -> reach c s (at_pc s' p k' ev').
Proof. intros. eapply R_step; [apply R_refl|]. eapply S_file; eassumption. Qed.
(** A file can be formatted in place: read at once, written in two parts, mode and owner
    set, set-id bits kept or not. *)
Lemma can_rewrite : forall c s p todo i a b sfx m u g keep, wf_fs (s_fs s) -> s_cur s = None -> s_todo s = p :: todo -> c_mode c = MInplace -> f_names (s_fs s) p = Some i ->
  c_format c p (i_data (f_nodes (s_fs s) i)) = Some (a ++ b) -> i_data (f_nodes (s_fs s) i) <> a ++ b -> b <> [] ->
  length sfx = 8 -> ~ In "/"%char sfx -> f_names (s_fs s) (tmptemplate p ++ sfx) = None -> m <> i_mode (f_nodes (s_fs s) i) -> u <> i_uid (f_nodes (s_fs s) i) ->
  exists s', reach c s s' /\ s_cur s' = None /\ s_todo s' = todo /\ s_done s' = (p, [], false) :: s_done s /\ s_error s' = s_error s /\
    f_names (s_fs s') p = Some (f_next (s_fs s)) /\
    f_nodes (s_fs s') (f_next (s_fs s)) = chown keep (i_uid (f_nodes (s_fs s) i)) (i_gid (f_nodes (s_fs s) i)) (Inode (a ++ b) (i_mode (f_nodes (s_fs s) i)) (i_setid (f_nodes (s_fs s) i)) u g).
Proof.
  intros c s p todo i a b sfx m u g keep W Cu To M N F D Nb L Sf Nt Hm Hu. set (j := f_next (s_fs s)) in *. assert (Lj := W p i N).
  set (tmp := tmptemplate p ++ sfx) in *. assert (T : tmp_of p tmp) by (exists sfx; auto). assert (NT := tmp_neq _ _ T).
  set (s1 := State (s_fs s) (s_out s) todo (Some (p, Open, [])) (s_done s) (s_error s)).
  assert (R1 : reach c s s1) by (eapply R_step; [apply R_refl|apply S_next; assumption]).
  set (d := i_data (f_nodes (s_fs s) i)) in *.
  assert (R2 : reach c s1 (at_pc s1 p (Format i d) [])).
  { eapply reach_trans; [apply (one c s1 p Open [] s1 (Read i []) []); [reflexivity|apply P_open; exact N]|]. destruct d as [|x d0] eqn:Ed.
    - apply (one c (at_pc s1 p (Read i []) []) p (Read i []) [] (at_pc s1 p (Read i []) []) (Format i []) []); [reflexivity|]. apply P_read_eof. cbn. symmetry. exact Ed.
    - eapply reach_trans; [apply (one c (at_pc s1 p (Read i []) []) p (Read i []) [] (at_pc s1 p (Read i []) []) (Read i ([] ++ x :: d0)) []); [reflexivity|]; apply P_read; [discriminate|]; cbn [at_pc s1 s_fs app]; fold d; rewrite Ed; apply starts_with_spec; exists []; rewrite app_nil_r; reflexivity|].
      apply (one c (at_pc s1 p (Read i (x :: d0)) []) p (Read i (x :: d0)) [] (at_pc s1 p (Read i (x :: d0)) []) (Format i (x :: d0)) []); [reflexivity|]. apply P_read_eof. symmetry. exact Ed. }
  assert (Ns : path_eqb d (a ++ b) = false) by (apply path_eqb_neq; exact D).
  set (s2 := at_pc s1 p (Format i d) []) in *.
  assert (R3 : reach c s2 (at_pc s1 p (Mkstemp i (a ++ b)) [])).
  { assert (X := one c s2 p (Format i d) [] s2 _ _ eq_refl (P_format c s2 p i d (a ++ b) [] F)). unfold dispatch in X. rewrite M, Ns in X. exact X. }
  set (s3 := at_pc s1 p (Mkstemp i (a ++ b)) []) in *.
  set (f4 := Fs (f_names (set_name tmp (Some j) (s_fs s))) (f_nodes (set_node j (Inode [] m false u g) (s_fs s))) (S j)).
  set (s4 := State f4 (s_out s) todo (Some (p, Write i tmp j (a ++ b), [])) (s_done s) (s_error s)).
  assert (R4 : reach c s3 s4). { assert (X := one c s3 p (Mkstemp i (a ++ b)) [] _ _ _ eq_refl (P_mkstemp c s3 p i (a ++ b) sfx m u g [] L Sf Nt)). exact X. }
  set (f5 := set_node j (append a (f_nodes f4 j)) f4). set (s5 := State f5 (s_out s) todo (Some (p, Write i tmp j b, [])) (s_done s) (s_error s)).
  assert (R5 : reach c s4 s5). { assert (Nab : a ++ b <> []) by (destruct a; [exact Nb|discriminate]). exact (one c s4 p (Write i tmp j (a ++ b)) [] _ _ _ eq_refl (P_write c s4 p i tmp j a b [] Nab)). }
  set (f6 := set_node j (append b (f_nodes f5 j)) f5). set (s6 := State f6 (s_out s) todo (Some (p, Write i tmp j [], [])) (s_done s) (s_error s)).
  assert (R6 : reach c s5 s6). { assert (Y := P_write c s5 p i tmp j b [] []). rewrite app_nil_r in Y. exact (one c s5 p (Write i tmp j b) [] _ _ _ eq_refl (Y Nb)). }
  set (s7 := State f6 (s_out s) todo (Some (p, Chmod tmp j (f_nodes f6 j) (f_nodes f6 i), [])) (s_done s) (s_error s)).
  assert (R7 : reach c s6 s7). { eapply reach_trans; [exact (one c s6 p _ [] _ _ _ eq_refl (P_write_end c s6 p i tmp j []))|]. eapply reach_trans; [exact (one c (at_pc s6 p (Stat1 i tmp j) []) p _ [] _ _ _ eq_refl (P_stat1 c _ p i tmp j []))|]. exact (one c (at_pc s6 p (Stat2 i tmp j (f_nodes f6 j)) []) p _ [] _ _ _ eq_refl (P_stat2 c _ p i tmp j _ [])). }
  assert (Fj : f_nodes f6 j = Inode (a ++ b) m false u g) by (unfold f6, f5, f4; cbn [set_node f_nodes]; rewrite !Nat.eqb_refl; cbn [append i_data i_mode i_setid i_uid i_gid app]; reflexivity).
  assert (Fi : f_nodes f6 i = f_nodes (s_fs s) i) by (unfold f6, f5, f4; cbn [set_node f_nodes]; destruct (Nat.eqb_spec i j); [lia|reflexivity]).
  set (f8 := set_node j (chmod (i_mode (f_nodes f6 i)) (i_setid (f_nodes f6 i)) (f_nodes f6 j)) f6). set (s8 := State f8 (s_out s) todo (Some (p, Chown tmp j (f_nodes f6 j) (f_nodes f6 i), [])) (s_done s) (s_error s)).
  assert (R8 : reach c s7 s8). { assert (Q : i_mode (f_nodes f6 j) <> i_mode (f_nodes f6 i) \/ i_setid (f_nodes f6 j) <> i_setid (f_nodes f6 i)) by (left; rewrite Fj, Fi; exact Hm). exact (one c s7 p _ [] _ _ _ eq_refl (P_chmod c s7 p tmp j _ _ [] Q)). }
  set (f9 := set_node j (chown keep (i_uid (f_nodes f6 i)) (i_gid (f_nodes f6 i)) (f_nodes f8 j)) f8). set (s9 := State f9 (s_out s) todo (Some (p, Rename tmp, [])) (s_done s) (s_error s)).
  assert (R9 : reach c s8 s9). { assert (Q : i_uid (f_nodes f6 j) <> i_uid (f_nodes f6 i) \/ i_gid (f_nodes f6 j) <> i_gid (f_nodes f6 i)) by (left; rewrite Fj, Fi; exact Hu). exact (one c s8 p _ [] _ _ _ eq_refl (P_chown c s8 p tmp j _ _ keep [] Q)). }
  set (f10 := set_name tmp None (set_name p (Some j) f9)).
  assert (R10 : reach c s9 (State f10 (s_out s) todo None ((p, [], false) :: s_done s) (s_error s || false))).
  { assert (Q : f_names (s_fs s9) tmp = Some j) by (cbn; rewrite path_eqb_refl; reflexivity). eapply reach_trans; [exact (one c s9 p _ [] _ _ _ eq_refl (P_rename c s9 p tmp j [] Q))|]. eapply R_step; [apply R_refl|]. apply (S_ret c (State f10 (s_out s) todo (Some (p, Ret false, [])) (s_done s) (s_error s)) p false []). reflexivity. }
  eexists. split; [eapply reach_trans; [exact R1|]; eapply reach_trans; [exact R2|]; eapply reach_trans; [exact R3|]; eapply reach_trans; [exact R4|]; eapply reach_trans; [exact R5|]; eapply reach_trans; [exact R6|]; eapply reach_trans; [exact R7|]; eapply reach_trans; [exact R8|]; eapply reach_trans; [exact R9|exact R10]|].
  cbn [s_cur s_todo s_done s_error s_fs]. split; [reflexivity|]. split; [reflexivity|]. split; [reflexivity|]. split; [apply orb_false_r|]. split.
  - unfold f10. cbn [set_name f_names]. destruct (path_eqb p tmp) eqn:E; [apply path_eqb_eq in E; congruence|]. rewrite path_eqb_refl. reflexivity.
  - unfold f10, f9, f8. cbn [set_name set_node f_nodes]. rewrite !Nat.eqb_refl, Fi, Fj. reflexivity.
Qed.
Lemma ex_run : forall keep, exists s, reach ex_cfg (init ex_fs [ex_p]) s /\ finished s /\ s_done s = [(ex_p, [], false)] /\ f_names (s_fs s) ex_p = Some 1 /\ f_nodes (s_fs s) 1 = Inode (s2b "int x;") 420 keep 7 7.
Proof.
  intros keep. destruct (can_rewrite ex_cfg (init ex_fs [ex_p]) ex_p [] 0 (s2b "int") (s2b " x;") (s2b "abcdefgh") 384 5 5 keep) as (s' & R & A & B & Cc & _ & Nn & Nd); try reflexivity; try discriminate.
  - exact ex_wf.
  - cbn. intuition discriminate.
  - exists s'. split; [exact R|]. split; [split; assumption|]. split; [exact Cc|]. split; [exact Nn|]. exact Nd.
Qed.
Example ex_36 : NoDup [ex_p] /\ wf_fs ex_fs /\ content ex_fs ex_p = Some (s2b "int  x;").
Proof. split; [repeat constructor; auto|]. split; [exact ex_wf|reflexivity]. Qed.
(** Set-id bits may be lost: the mode is set before the owner. *)
Theorem C57_setid_refuted : exists c f0 files s p i j, wf_fs f0 /\ reach c (init f0 files) s /\ finished s /\ exit_status s = 0 /\ f_names f0 p = Some i /\ f_names (s_fs s) p = Some j /\ i_setid (f_nodes f0 i) = true /\ i_setid (f_nodes (s_fs s) j) = false.
Proof.
  destruct (ex_run false) as (s & R & F & D & N & Nd). exists ex_cfg, ex_fs, [ex_p], s, ex_p, 0, 1. split; [exact ex_wf|]. split; [exact R|]. split; [exact F|]. split.
  - unfold exit_status. rewrite (in_err _ _ (inv_reach _ _ _ _ ex_wf R)), D. reflexivity.
  - split; [reflexivity|]. split; [exact N|]. split; [reflexivity|]. rewrite Nd. reflexivity.
Qed.

(** Losing power is different from being interrupted: what is on the disk lags behind, by
    file and by name, as nothing is synced (fsync(2)) before the renaming. *)
Inductive dreach (c : cfg) (f0 : fs) (files : list path) : state -> fs -> Prop :=
| D_init : dreach c f0 files (init f0 files) f0
| D_step : forall s s' d, dreach c f0 files s d -> step c s s' -> dreach c f0 files s' d
| D_name : forall s d p, dreach c f0 files s d -> dreach c f0 files s (set_name p (f_names (s_fs s) p) d)
| D_node : forall s d i, dreach c f0 files s d -> dreach c f0 files s (set_node i (f_nodes (s_fs s) i) d).
Lemma dreach_reach : forall c f0 files s s' d, dreach c f0 files s d -> reach c s s' -> dreach c f0 files s' d.
Proof. intros c f0 files s s' d H R. induction R; [exact H|]. eapply D_step; eassumption. Qed.
Theorem C36_power_refuted : exists c f0 files s d p old new, wf_fs f0 /\ NoDup files /\ dreach c f0 files s d /\ content f0 p = Some old /\ c_format c p old = Some new /\ content d p <> Some old /\ content d p <> Some new.
Proof.
  destruct (ex_run true) as (s & R & F & D & N & Nd). exists ex_cfg, ex_fs, [ex_p], s, (set_name ex_p (f_names (s_fs s) ex_p) ex_fs), ex_p, (s2b "int  x;"), (s2b "int x;"). destruct ex_36 as (A & B & C). split; [exact B|]. split; [exact A|]. split; [apply D_name; eapply dreach_reach; [apply D_init|exact R]|]. split; [exact C|]. split; [reflexivity|]. rewrite N. split; vm_compute; discriminate.
Qed.

(** Three files, the second of which is missing: the others are formatted, the status is 1. *)
Example ex_missing : exists s, reach (Cfg MDiff (fun _ b => Some b)) (init ex_fs [ex_p; s2b "no"; ex_p]) s /\ finished s /\ exit_status s = 1 /\ map (fun x => snd x) (rev (s_done s)) = [false; true; false].
Proof.
  set (c := Cfg MDiff (fun _ b => Some b)).
  assert (OK : forall s todo, s_fs s = ex_fs -> s_cur s = None -> s_todo s = ex_p :: todo -> reach c s (State ex_fs (s_out s) todo None ((ex_p, [], false) :: s_done s) (s_error s || false))).
  { intros s todo Ef Ec Et. set (s1 := State (s_fs s) (s_out s) todo (Some (ex_p, Open, [])) (s_done s) (s_error s)). eapply reach_trans; [eapply R_step; [apply R_refl|apply S_next; eassumption]|]. fold s1.
    eapply reach_trans; [apply (one c s1 ex_p Open [] s1 (Read 0 []) [] eq_refl); apply P_open; cbn [s1 s_fs]; rewrite Ef; reflexivity|].
    eapply reach_trans; [apply (one c (at_pc s1 ex_p (Read 0 []) []) ex_p _ [] (at_pc s1 ex_p (Read 0 []) []) (Read 0 ([] ++ s2b "int  x;")) [] eq_refl); apply P_read; [discriminate|cbn [s1 at_pc s_fs]; rewrite Ef; reflexivity]|].
    eapply reach_trans; [apply (one c (at_pc s1 ex_p (Read 0 (s2b "int  x;")) []) ex_p _ [] (at_pc s1 ex_p (Read 0 (s2b "int  x;")) []) (Format 0 (s2b "int  x;")) [] eq_refl); apply P_read_eof; cbn [s1 at_pc s_fs]; rewrite Ef; reflexivity|].
    eapply reach_trans; [apply (one c (at_pc s1 ex_p (Format 0 (s2b "int  x;")) []) ex_p _ [] (at_pc s1 ex_p (Format 0 (s2b "int  x;")) []) (Ret false) [] eq_refl); apply (P_format c (at_pc s1 ex_p (Format 0 (s2b "int  x;")) []) ex_p 0 (s2b "int  x;") (s2b "int  x;") [] eq_refl)|].
    eapply R_step; [apply R_refl|]. rewrite <- Ef. apply (S_ret c (at_pc s1 ex_p (Ret false) []) ex_p false []). reflexivity. }
  eexists. split.
  - eapply reach_trans; [apply (OK _ [s2b "no"; ex_p]); reflexivity|]. eapply reach_trans; [eapply R_step; [eapply R_step; [eapply R_step; [apply R_refl|eapply S_next; reflexivity]|eapply S_file; [reflexivity|apply P_open_fail]]|eapply S_ret; reflexivity]|]. apply (OK _ []); reflexivity.
  - split; [split; reflexivity|]. split; reflexivity.
Qed.

Example ex_print : exists s, reach (Cfg MPrint (fun _ _ => Some (s2b "int x;"))) (init ex_fs [ex_p]) s /\ finished s /\ exit_status s = 0 /\ s_out s = s2b "int x;".
Proof.
  set (c := Cfg MPrint (fun _ _ => Some (s2b "int x;"))). set (s1 := State ex_fs [] [] (Some (ex_p, Open, [])) [] false).
  eexists. split.
  - eapply reach_trans; [eapply R_step; [apply R_refl|apply S_next; reflexivity]|].
    eapply reach_trans; [apply (one c s1 ex_p Open [] s1 (Read 0 []) [] eq_refl); apply P_open; reflexivity|].
    eapply reach_trans; [apply (one c (at_pc s1 ex_p (Read 0 []) []) ex_p _ [] (at_pc s1 ex_p (Read 0 []) []) (Read 0 ([] ++ s2b "int  x;")) [] eq_refl); apply P_read; [discriminate|reflexivity]|].
    eapply reach_trans; [apply (one c (at_pc s1 ex_p (Read 0 (s2b "int  x;")) []) ex_p _ [] (at_pc s1 ex_p (Read 0 (s2b "int  x;")) []) (Format 0 (s2b "int  x;")) [] eq_refl); apply P_read_eof; reflexivity|].
    eapply reach_trans; [exact (one c (at_pc s1 ex_p (Format 0 (s2b "int  x;")) []) ex_p _ [] _ _ _ eq_refl (P_format c (at_pc s1 ex_p (Format 0 (s2b "int  x;")) []) ex_p 0 (s2b "int  x;") (s2b "int x;") [] eq_refl))|].
    assert (Q1 : s2b "int" ++ s2b " x;" <> []) by discriminate. assert (Q2 : s2b " x;" ++ [] <> []) by discriminate.
    eapply reach_trans; [exact (one c (at_pc s1 ex_p (Print (s2b "int x;")) []) ex_p _ [] _ _ _ eq_refl (P_print c (at_pc s1 ex_p (Print (s2b "int x;")) []) ex_p (s2b "int") (s2b " x;") [] Q1))|].
    set (s2 := State ex_fs (s2b "int") [] (Some (ex_p, Print (s2b " x;"), [])) [] false).
    eapply reach_trans; [exact (one c s2 ex_p _ [] _ _ _ eq_refl (P_print c s2 ex_p (s2b " x;") [] [] Q2))|].
    set (s3 := State ex_fs (s2b "int x;") [] (Some (ex_p, Print [], [])) [] false).
    eapply reach_trans; [exact (one c s3 ex_p _ [] _ _ _ eq_refl (P_print_end c s3 ex_p []))|].
    eapply R_step; [apply R_refl|]. apply (S_ret c (at_pc s3 ex_p (Ret false) []) ex_p false []). reflexivity.
  - split; [split; reflexivity|]. split; reflexivity.
Qed.

Print Assumptions C36_atomic.
Print Assumptions C36_content.
Print Assumptions C36_step.
Print Assumptions C36_nothing.
Print Assumptions C36_result.
Print Assumptions C36_leftovers.
Print Assumptions C36_cleanup.
Print Assumptions C36_directory.
Print Assumptions C36_power_refuted.
Print Assumptions C37_exit.
Print Assumptions C37_diff.
Print Assumptions C57_attributes.
Print Assumptions C57_setid_refuted.
Print Assumptions C58_output.
Print Assumptions C58_success.
