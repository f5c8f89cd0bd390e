(** Include guards: C27. *)
From Verif Require Import Base StrModel StrProofs UtilModel UtilProofs UtilProps GuardModel.

(** ** Specification. *)
Definition ids (l : list gtok) : list nat := List.map g_id l.
Definition view (t : gtok) : kind * bytes := (g_kind t, g_str t).
Definition views (l : list gtok) : list (kind * bytes) := List.map view l.
(** Words of a text. *)
Fixpoint words (space : bool) (s : bytes) : nat :=
  match s with [] => 0 | c :: r => (if space && negb (isspace c) then 1 else 0) + words (isspace c) r end.
(** The prefixes have a guard: the first #ifndef, directly followed by the first #define of just a
    name, up to an #endif in front of the end of the file. *)
Definition old_guard (h : header) (i d e : gtok) (pre post : list gtok) : Prop :=
  h_pre h (h_first h) = pre ++ i :: d :: post /\ g_kind i = KIfndef /\ g_kind d = KDefine /\
  (forall t, In t pre -> g_kind t <> KIfndef /\ g_kind t <> KDefine) /\ words true (g_str d) = 2 /\
  h_nx h (g_id i) = Some e /\ g_kind e = KEndif /\ h_parent h (g_id e) = h_eof h.
(** The three lines of the guard [g], as bytes. *)
Definition ifndef_line (g : bytes) : bytes := s2b "#ifndef " ++ g ++ s2b "
".
Definition define_line (g : bytes) : bytes := s2b "#define " ++ g ++ s2b "

".
Definition endif_line (g : bytes) : bytes := s2b "#endif /* !" ++ g ++ s2b " */
".
Definition guarded (h : header) (g : bytes) : Prop :=
  exists i d e pre post, old_guard h i d e pre post /\ g_str i = ifndef_line g /\ g_str d = define_line g /\ g_str e = endif_line g.
(** Leading comments, what is put behind. *)
Definition comment (t : gtok) : bool := kind_eqb (g_kind t) KComment.
Definition lead (l : list gtok) : list gtok := firstn (span_len comment l) l.
Definition body (l : list gtok) : list gtok := skipn (span_len comment l) l.
Definition empty_line : kind * bytes := (KSpace, [NL]).
Definition ends_blank (s : bytes) : Prop := exists p, s = p ++ [NL; NL].
Definition separator (cs : list gtok) (sep : list (kind * bytes)) : Prop :=
  sep = [] /\ (cs = [] \/ exists a c, cs = a ++ [c] /\ ends_blank (g_str c)) \/
  sep = [empty_line] /\ exists a c, cs = a ++ [c] /\ ~ ends_blank (g_str c).
Definition opening (g : bytes) : list (kind * bytes) := [(KCpp, ifndef_line g); (KDefine, define_line g)].
Definition closing (g : bytes) : kind * bytes := (KCpp, endif_line g).
(** References: identities are unique, an #ifndef is linked (C16) to a prefix of its parent. *)
Definition wf (h : header) : Prop :=
  NoDup (ids (h_pre h (h_first h))) /\ NoDup (ids (h_pre h (h_eof h))) /\
  (forall t, In t (h_pre h (h_first h)) \/ In t (h_pre h (h_eof h)) -> g_id t < h_next h) /\
  (forall i, In i (h_pre h (h_first h)) -> g_kind i = KIfndef -> exists e, h_nx h (g_id i) = Some e /\ In e (h_pre h (h_parent h (g_id e)))).

(** ** Proofs. *)
Lemma line_texts : forall g, ifndef_text g = ifndef_line g /\ define_text g = define_line g /\ endif_text g = endif_line g.
Proof. intros g. repeat split. Qed.
Ltac lines := repeat match goal with |- context [ifndef_text ?g] => rewrite (proj1 (line_texts g)) | |- context [define_text ?g] => rewrite (proj1 (proj2 (line_texts g))) | |- context [endif_text ?g] => rewrite (proj2 (proj2 (line_texts g))) end.
Lemma kind_eqb_eq : forall a b, kind_eqb a b = true <-> a = b.
Proof. intros a b. split; [destruct a, b; (reflexivity || discriminate)|intros ->; destruct b; reflexivity]. Qed.
Lemma kind_eqb_neq : forall a b, kind_eqb a b = false <-> a <> b.
Proof. intros a b. rewrite <- kind_eqb_eq. destruct (kind_eqb a b); split; congruence. Qed.
Lemma verbatim2_spec : forall s, verbatim2 s = true <-> ends_blank s.
Proof.
  intros s. unfold verbatim2, ends_blank. split.
  - destruct (rev s) as [|a [|b r]] eqn:E; try discriminate. intros H. apply andb_true_iff in H. destruct H as [H1 H2]. apply Ascii.eqb_eq in H1. apply Ascii.eqb_eq in H2. subst. exists (rev r). rewrite <- (rev_involutive s), E. cbn [rev]. rewrite <- app_assoc. reflexivity.
  - intros (p & ->). rewrite rev_app_distr. reflexivity.
Qed.
Lemma verbatim2_false : forall s, verbatim2 s = false <-> ~ ends_blank s.
Proof. intros s. rewrite <- verbatim2_spec. destruct (verbatim2 s); split; congruence. Qed.
Lemma ids_app : forall a b, ids (a ++ b) = ids a ++ ids b.
Proof. intros. apply map_app. Qed.
Lemma views_app : forall a b, views (a ++ b) = views a ++ views b.
Proof. intros. apply map_app. Qed.

Lemma skip_words : forall s, words false s = words true (skipn (span_len (fun c => negb (isspace c)) s) s).
Proof. induction s as [|c r IH]; [reflexivity|]. cbn [words span_len]. destruct (isspace c) eqn:E; cbn [negb andb]; [cbn [skipn words]; rewrite E; reflexivity|]. cbn [skipn]. cbn [words andb]. exact IH. Qed.
Lemma skip_spaces : forall s, words true (skipn (span_len isspace s) s) = words true s.
Proof. induction s as [|c r IH]; [reflexivity|]. cbn [words span_len]. destruct (isspace c) eqn:E; cbn [negb andb]; [cbn [skipn]; exact IH|]. cbn [skipn words]. rewrite E. reflexivity. Qed.
Lemma one_word : forall s, words true s = (if 0 <? span_len (fun c => negb (isspace c)) s then 1 else 0) + words true (skipn (span_len (fun c => negb (isspace c)) s) s).
Proof. intros [|c r]; [reflexivity|]. cbn [words span_len]. destruct (isspace c) eqn:E; cbn [negb andb]; [cbn [skipn words Nat.ltb Nat.leb]; rewrite E; reflexivity|]. cbn [skipn Nat.ltb Nat.leb]. rewrite skip_words. reflexivity. Qed.
Lemma guard_words_step : forall f s n, s <> [] -> guard_words (S f) s n =
  let k := span_len (fun c => negb (isspace c)) s in
  let n := n + (if 0 <? k then 1 else 0) in
  let s := skipn k s in
  if 2 <? n then Some n else guard_words f (skipn (span_len isspace s) s) n.
Proof. intros f [|c r] n H; [congruence|reflexivity]. Qed.
Lemma guard_words_spec : forall fuel s n, length s < fuel -> exists m, guard_words fuel s n = Some m /\ (m = n + words true s \/ 2 < m /\ 2 < n + words true s).
Proof.
  induction fuel as [|f IH]; intros s n L; [lia|]. destruct s as [|c r] eqn:ES; [exists n; cbn; split; [reflexivity|left; lia]|]. rewrite <- ES in *. rewrite guard_words_step by (rewrite ES; discriminate). cbv zeta. rewrite (one_word s). set (k := span_len (fun c => negb (isspace c)) s). set (w := if 0 <? k then 1 else 0). destruct (Nat.ltb_spec 2 (n + w)).
  - eexists. split; [reflexivity|]. right. lia.
  - set (s' := skipn k s). destruct (IH (skipn (span_len isspace s') s') (n + w)) as (m & M1 & M2).
    + rewrite skipn_length. unfold s'. rewrite skipn_length. assert (0 < k + span_len isspace (skipn k s)). { unfold k. rewrite ES. cbn [span_len]. destruct (isspace c) eqn:E; cbn [negb]; [cbn [skipn span_len]; rewrite E; lia|lia]. } pose proof (span_len_le isspace (skipn k s)) as Q. rewrite skipn_length in Q. assert (length s <> 0) by (rewrite ES; discriminate). assert (k <= length s) by apply span_len_le. lia.
    + exists m. split; [exact M1|]. rewrite skip_spaces in M2. lia.
Qed.
Lemma is_guard_define_spec : forall s, is_guard_define s = true <-> words true s = 2.
Proof. intros s. unfold is_guard_define. destruct (guard_words_spec (S (length s)) s 0 ltac:(lia)) as (m & -> & H). rewrite Nat.eqb_eq. lia. Qed.

Lemma find_kind_some : forall k l t, find_kind k l = Some t -> exists a b, l = a ++ t :: b /\ g_kind t = k /\ forall u, In u a -> g_kind u <> k.
Proof.
  induction l as [|x l IH]; intros t H; [discriminate|]. unfold find_kind in H. cbn [List.find] in H. destruct (kind_eqb (g_kind x) k) eqn:E.
  - inversion H; subst. exists [], l. split; [reflexivity|]. split; [apply kind_eqb_eq; exact E|intros u []].
  - destruct (IH t H) as (a & b & -> & A & B). exists (x :: a), b. split; [reflexivity|]. split; [exact A|]. intros u [<-|Hu]; [apply kind_eqb_neq; exact E|exact (B u Hu)].
Qed.
Lemma find_kind_at : forall k a t b, (forall u, In u a -> g_kind u <> k) -> g_kind t = k -> find_kind k (a ++ t :: b) = Some t.
Proof. induction a as [|x a IH]; intros t b H E; unfold find_kind; cbn [app List.find]; [rewrite (proj2 (kind_eqb_eq _ _) E); reflexivity|]. rewrite (proj2 (kind_eqb_neq _ _) (H x (or_introl eq_refl))). apply IH; [|exact E]. intros u Hu. apply H. right. exact Hu. Qed.
Lemma find_kind_none : forall k l, find_kind k l = None -> forall u, In u l -> g_kind u <> k.
Proof. intros k l H u Hu. apply kind_eqb_neq. exact (List.find_none _ _ H u Hu). Qed.
Lemma not_in_ids : forall a t b, NoDup (ids (a ++ t :: b)) -> forall u, In u a \/ In u b -> g_id u <> g_id t.
Proof. intros a t b N u Hu Q. rewrite ids_app in N. cbn [ids List.map] in N. apply NoDup_remove_2 in N. apply N. apply in_or_app. rewrite <- Q. destruct Hu; [left|right]; apply in_map; assumption. Qed.
Lemma next_of_at : forall a t b, NoDup (ids (a ++ t :: b)) -> next_of (g_id t) (a ++ t :: b) = hd_error b.
Proof.
  induction a as [|x a IH]; intros t b N; cbn [app next_of]; [rewrite Nat.eqb_refl; reflexivity|]. rewrite (proj2 (Nat.eqb_neq _ _)).
  - apply IH. inversion N; assumption.
  - apply (not_in_ids (x :: a) t b N). left. left. reflexivity.
Qed.
Lemma list_remove_at : forall a t b, NoDup (ids (a ++ t :: b)) -> list_remove (g_id t) (a ++ t :: b) = Some (a ++ b).
Proof.
  induction a as [|x a IH]; intros t b N; cbn [app list_remove]; [rewrite Nat.eqb_refl; reflexivity|]. rewrite (proj2 (Nat.eqb_neq _ _)); [rewrite IH by (inversion N; assumption); reflexivity|]. apply (not_in_ids (x :: a) t b N). left. left. reflexivity.
Qed.
Lemma append_after_at : forall a t b u, NoDup (ids (a ++ t :: b)) -> append_after (g_id t) u (a ++ t :: b) = Some (a ++ t :: u :: b).
Proof.
  induction a as [|x a IH]; intros t b u N; cbn [app append_after]; [rewrite Nat.eqb_refl; reflexivity|]. rewrite (proj2 (Nat.eqb_neq _ _)); [rewrite IH by (inversion N; assumption); reflexivity|]. apply (not_in_ids (x :: a) t b N). left. left. reflexivity.
Qed.
Lemma nodup_same : forall l t u, NoDup (ids l) -> In t l -> In u l -> g_id t = g_id u -> t = u.
Proof.
  intros l t u N Ht Hu E. apply in_split in Ht. destruct Ht as (a & b & ->). apply in_app_or in Hu. destruct Hu as [Hu|[Hu|Hu]]; [|exact Hu|]; exfalso; exact (not_in_ids a t b N u ltac:(tauto) (eq_sym E)).
Qed.
Lemma same_at : forall a t b d, NoDup (ids (a ++ t :: b)) -> In d (a ++ t :: b) -> same (next_of (g_id t) (a ++ t :: b)) d = true -> exists b', b = d :: b'.
Proof.
  intros a t b d N D H. rewrite next_of_at in H by exact N. destruct b as [|x b]; [discriminate|]. cbn [hd_error same] in H. apply Nat.eqb_eq in H. assert (x = d) as ->; [|eauto]. eapply nodup_same; [exact N| |exact D|exact H]. apply in_or_app. right. right. left. reflexivity.
Qed.

(** Recognition. *)
Inductive sense_ok (h : header) (g : bytes) : sensed -> Prop :=
| so_right : guarded h g -> sense_ok h g Stop
| so_none : (~ exists i d e pre post, old_guard h i d e pre post) -> sense_ok h g (Replace None)
| so_some i d e pre post : old_guard h i d e pre post -> ~ guarded h g -> sense_ok h g (Replace (Some (i, d, e))).
Lemma old_guard_unique : forall h i d e pre post i' d' e' pre' post', NoDup (ids (h_pre h (h_first h))) -> old_guard h i d e pre post -> old_guard h i' d' e' pre' post' -> i = i' /\ d = d' /\ e = e' /\ pre = pre' /\ post = post'.
Proof.
  intros h i d e pre post i' d' e' pre' post' N (A1 & A2 & A3 & A4 & A5 & A6 & A7 & A8) (B1 & B2 & B3 & B4 & B5 & B6 & B7 & B8). rewrite A1 in B1. clear A1.
  assert (P : pre = pre' /\ i :: d :: post = i' :: d' :: post').
  { revert pre' B1 B4. induction pre as [|x pre IH]; intros [|y pre'] Q F; cbn [app] in Q.
    - auto.
    - inversion Q; subst. destruct (F y (or_introl eq_refl)). congruence.
    - inversion Q; subst. destruct (A4 i' (or_introl eq_refl)). congruence.
    - inversion Q; subst. destruct (IH (fun t Ht => A4 t (or_intror Ht)) pre' ltac:(assumption) (fun t Ht => F t (or_intror Ht))) as [-> E]. split; [reflexivity|exact E]. }
  destruct P as [-> P]. inversion P; subst. repeat split. congruence.
Qed.
Lemma sense_spec : forall h g, wf h -> h_some h = true -> sense_ok h g (sense h (ifndef_line g) (define_line g) (endif_line g)).
Proof.
  intros h g (N & N' & FR & LK) SM. unfold sense. rewrite SM. cbn [negb]. destruct (find_kind KIfndef (h_pre h (h_first h))) as [i|] eqn:FI.
  2:{ constructor. intros (i & d & e & pre & post & A1 & A2 & _). apply (find_kind_none _ _ FI i); [rewrite A1; apply in_or_app; right; left; reflexivity|exact A2]. }
  destruct (find_kind_some _ _ _ FI) as (a & b & E1 & E2 & E3). destruct (find_kind KDefine (h_pre h (h_first h))) as [d|] eqn:FD.
  2:{ constructor. intros (i' & d & e & pre & post & A1 & A2 & A3 & _). apply (find_kind_none _ _ FD d); [rewrite A1; apply in_or_app; right; right; left; reflexivity|exact A3]. }
  assert (OG : forall i' d' e' pre post, old_guard h i' d' e' pre post -> i' = i /\ d' = d /\ same (next_of (g_id i) (h_pre h (h_first h))) d = true /\ is_guard_define (g_str d) = true /\ h_nx h (g_id i) = Some e' /\ g_kind e' = KEndif /\ h_parent h (g_id e') = h_eof h).
  { intros i' d' e' pre post (A1 & A2 & A3 & A4 & A5 & A6 & A7 & A8). assert (i' = i) as ->. { rewrite A1, find_kind_at in FI by (try exact A2; intros u Hu; apply A4; exact Hu). congruence. }
    assert (d' = d) as ->. { rewrite A1 in FD. change (pre ++ i :: d' :: post) with (pre ++ [i] ++ d' :: post) in FD. rewrite app_assoc in FD. rewrite find_kind_at in FD; [congruence| |exact A3]. intros u Hu. apply in_app_or in Hu. destruct Hu as [Hu|[<-|[]]]; [apply A4; exact Hu|rewrite E2; discriminate]. }
    repeat split; auto; [|apply is_guard_define_spec; exact A5]. rewrite A1 in *. rewrite next_of_at by exact N. cbn [hd_error same]. apply Nat.eqb_refl. }
  destruct (same (next_of (g_id i) (h_pre h (h_first h))) d) eqn:ES; cbn [negb orb].
  2:{ constructor. intros (i' & d' & e' & pre & post & H). apply OG in H. intuition congruence. }
  destruct (is_guard_define (g_str d)) eqn:EG; cbn [negb].
  2:{ constructor. intros (i' & d' & e' & pre & post & H). apply OG in H. intuition congruence. }
  destruct (find_kind_some _ _ _ FD) as (a2 & b2 & D1 & D2 & D3). assert (EB : exists b', b = d :: b'). { rewrite E1 in ES. eapply same_at; [| |exact ES]; [rewrite <- E1; exact N|rewrite <- E1, D1; apply in_or_app; right; left; reflexivity]. } destruct EB as (b' & ->).
  destruct (LK i ltac:(rewrite E1; apply in_or_app; right; left; reflexivity) E2) as (e & L1 & L2). rewrite L1. destruct (kind_eqb (g_kind e) KEndif) eqn:EK; cbn [negb orb].
  2:{ constructor. intros (i' & d' & e' & pre & post & H). apply OG in H. apply kind_eqb_neq in EK. intuition congruence. }
  destruct (Nat.eqb_spec (h_parent h (g_id e)) (h_eof h)) as [EP|EP]; cbn [negb].
  2:{ constructor. intros (i' & d' & e' & pre & post & H). apply OG in H. intuition congruence. }
  assert (AD : forall t, In t a -> g_kind t <> KDefine).
  { intros t H Q. assert (LE : length a < length a2).
    { rewrite E1 in D1. destruct (le_lt_dec (length a2) (length a)) as [L|L]; [|exact L]. exfalso. assert (NDa : In d a \/ d = i). { clear - D1 L. revert a D1 L. induction a2 as [|x a2 IH]; intros [|y a] D1 L; cbn [length app] in *; try lia; inversion D1; subst; [right; reflexivity|left; left; reflexivity|]. destruct (IH a ltac:(assumption) ltac:(lia)) as [Z|Z]; [left; right; exact Z|right; exact Z]. } destruct NDa as [Z| ->]; [|congruence]. rewrite E1 in N. change (a ++ i :: d :: b') with (a ++ [i] ++ d :: b') in N. rewrite app_assoc in N. apply (not_in_ids _ _ _ N d); [left; apply in_or_app; left; exact Z|reflexivity]. }
    assert (IA : In t a2). { rewrite E1 in D1. clear - D1 LE H. revert a D1 LE H. induction a2 as [|x a2 IH]; intros [|y a] D1 LE H; cbn [length app] in *; try lia; [destruct H|]. inversion D1; subst. destruct H as [<-|H]; [left; reflexivity|right]. apply (IH a ltac:(assumption) ltac:(lia) H). } exact (D3 t IA Q). }
  assert (O : old_guard h i d e a b').
  { split; [exact E1|]. split; [exact E2|]. split; [exact D2|]. split; [intros t Ht; split; [exact (E3 t Ht)|exact (AD t Ht)]|]. split; [apply is_guard_define_spec; exact EG|]. split; [exact L1|]. split; [apply kind_eqb_eq; exact EK|exact EP]. }
  destruct (beq (g_str i) (ifndef_line g) && beq (g_str d) (define_line g) && beq (g_str e) (endif_line g)) eqn:EQ.
  - apply andb_true_iff in EQ. destruct EQ as [EQ Q3]. apply andb_true_iff in EQ. destruct EQ as [Q1 Q2]. constructor. exists i, d, e, a, b'. split; [exact O|]. repeat split; apply beq_eq; assumption.
  - econstructor; [exact O|]. intros (i' & d' & e' & pre & post & H & T1 & T2 & T3). destruct (old_guard_unique _ _ _ _ _ _ _ _ _ _ _ N O H) as (-> & -> & -> & _ & _). rewrite T1, T2, T3 in EQ. rewrite !(proj2 (beq_eq _ _) eq_refl) in EQ. discriminate.
Qed.

(** Rewriting. *)
Lemma lead_body : forall l, lead l ++ body l = l.
Proof. intros. apply firstn_skipn. Qed.
Lemma last_comment_spec : forall l c, last_comment l c = match rev (lead l) with t :: _ => Some t | [] => c end.
Proof.
  induction l as [|t l IH]; intros c; [reflexivity|]. cbn [last_comment]. unfold lead. cbn [span_len]. unfold comment at 1. destruct (kind_eqb (g_kind t) KComment); [|reflexivity]. cbn [firstn rev]. rewrite IH. fold (lead l). destruct (rev (lead l)) eqn:E; reflexivity.
Qed.
Lemma lead_app : forall a t b, comment t = false -> lead (a ++ t :: b) = lead a /\ body (a ++ t :: b) = body a ++ t :: b.
Proof.
  induction a as [|x a IH]; intros t b H; unfold lead, body in *; cbn [app span_len]; [rewrite H; split; reflexivity|]. destruct (comment x); [|split; reflexivity]. cbn [firstn skipn]. destruct (IH t b H) as [-> ->]. split; reflexivity.
Qed.
Lemma fresh_nodup : forall a b u, NoDup (ids (a ++ b)) -> ~ In (g_id u) (ids (a ++ b)) -> NoDup (ids (a ++ u :: b)).
Proof.
  intros a b u N F. rewrite ids_app in *. cbn [ids List.map]. apply NoDup_Add with (a := g_id u) (l := List.map g_id a ++ List.map g_id b); [apply Add_app|]. split; assumption.
Qed.
Lemma fresh_lt : forall l n, (forall t, In t l -> g_id t < n) -> forall m, n <= m -> ~ In m (ids l).
Proof. intros l n H m L Q. apply in_map_iff in Q. destruct Q as (t & <- & Ht). specialize (H t Ht). lia. Qed.
Lemma upd_same : forall f i l, upd f i l i = l.
Proof. intros. unfold upd. rewrite Nat.eqb_refl. reflexivity. Qed.
Lemma upd_other : forall f i l j, j <> i -> upd f i l j = f j.
Proof. intros. unfold upd. rewrite (proj2 (Nat.eqb_neq _ _)) by assumption. reflexivity. Qed.

Lemma emit_ifndef_spec : forall h p cpp, NoDup (ids (h_pre h p)) -> (forall t, In t (h_pre h p) -> g_id t < h_next h) ->
  exists n line i, emit_ifndef h p cpp = Some (set_pre h p (lead (h_pre h p) ++ line ++ i :: body (h_pre h p)) n, i) /\ h_next h <= n /\ view i = (KCpp, cpp) /\ separator (lead (h_pre h p)) (views line) /\
    NoDup (ids (lead (h_pre h p) ++ line ++ i :: body (h_pre h p))) /\ (forall t, In t (line ++ [i]) -> h_next h <= g_id t < n) /\ (forall t, In t line -> comment t = false).
Proof.
  intros h p cpp N FR. unfold emit_ifndef. rewrite last_comment_spec. set (l := h_pre h p) in *. clearbody l. set (i := GTok (h_next h) KCpp cpp). pose proof (lead_body l) as LB. destruct (rev (lead l)) as [|c r] eqn:E.
  - assert (EL : lead l = []) by (rewrite <- (rev_involutive (lead l)), E; reflexivity). rewrite EL in LB. cbn [app] in LB. exists (S (h_next h)), [], i. rewrite EL. cbn [app]. rewrite LB. repeat split; try lia.
    + left. split; [reflexivity|left; reflexivity].
    + apply (fresh_nodup [] l i); [exact N|]. apply (fresh_lt l (h_next h) FR). cbn. lia.
    + cbn [In] in H. destruct H as [<-|[]]; cbn; lia.
    + cbn [In] in H. destruct H as [<-|[]]; cbn; lia.
    + intros t [].
  - assert (EL : lead l = rev r ++ [c]) by (rewrite <- (rev_involutive (lead l)), E; reflexivity). assert (EL2 : l = rev r ++ c :: body l) by (rewrite <- LB at 1; rewrite EL, <- app_assoc; reflexivity). assert (N2 : NoDup (ids (rev r ++ c :: body l))) by (rewrite <- EL2; exact N).
    assert (F1 : ~ In (g_id i) (ids l)) by (apply (fresh_lt l (h_next h) FR); cbn; lia). destruct (verbatim2 (g_str c)) eqn:EV.
    + assert (AA : append_after (g_id c) i l = Some (rev r ++ c :: i :: body l)) by (rewrite EL2 at 1; apply append_after_at; exact N2). rewrite AA. exists (S (h_next h)), [], i. rewrite EL, <- app_assoc. cbn [app]. repeat split; try lia.
      * left. split; [reflexivity|right]. exists (rev r), c. split; [reflexivity|apply verbatim2_spec; exact EV].
      * change (rev r ++ c :: i :: body l) with (rev r ++ [c] ++ i :: body l). rewrite app_assoc. apply fresh_nodup; rewrite <- EL, LB; assumption.
      * cbn [In] in H. destruct H as [<-|[]]; cbn; lia.
      * cbn [In] in H. destruct H as [<-|[]]; cbn; lia.
      * intros t [].
    + set (line := line_tok (S (h_next h))). assert (AA : append_after (g_id c) line l = Some (rev r ++ c :: line :: body l)) by (rewrite EL2 at 1; apply append_after_at; exact N2). rewrite AA. assert (F2 : ~ In (g_id line) (ids l)) by (apply (fresh_lt l (h_next h) FR); cbn; lia). assert (N3 : NoDup (ids ((rev r ++ [c]) ++ line :: body l))) by (apply fresh_nodup; rewrite <- EL, LB; assumption).
      change (rev r ++ c :: line :: body l) with (rev r ++ [c] ++ line :: body l). rewrite app_assoc. rewrite append_after_at by exact N3. exists (S (S (h_next h))), [line], i. rewrite EL. cbn [app]. rewrite <- !app_assoc. cbn [app]. repeat split; try lia.
      * right. split; [reflexivity|]. exists (rev r), c. split; [reflexivity|apply verbatim2_false; exact EV].
      * change (rev r ++ c :: line :: i :: body l) with (rev r ++ ([c] ++ [line]) ++ i :: body l). rewrite app_assoc. apply fresh_nodup; rewrite !app_assoc, <- app_assoc; cbn [app]; [exact N3|]. intros Q. rewrite ids_app in Q. apply in_app_or in Q. cbn [ids List.map] in Q. assert (IL : ids l = ids (rev r ++ [c]) ++ ids (body l)) by (rewrite <- ids_app, <- EL, LB; reflexivity). destruct Q as [Q|[Q|Q]]; [apply F1; rewrite IL; apply in_or_app; left; exact Q|cbn in Q; lia|apply F1; rewrite IL; apply in_or_app; right; exact Q].
      * cbn [In] in H. destruct H as [<-|[<-|[]]]; cbn; lia.
      * cbn [In] in H. destruct H as [<-|[<-|[]]]; cbn; lia.
      * intros t [<-|[]]. reflexivity.
Qed.

(** The end of file. *)
Definition closed_by (old : list gtok) (e : option gtok) (g : bytes) (new : list gtok) : Prop :=
  match e with
  | Some e => exists a b, old = a ++ e :: b /\ views new = views a ++ views b ++ [closing g]
  | None =>
      views new = views old ++ [closing g] /\ (exists a t, old = a ++ [t] /\ ends_blank (g_str t)) \/
      views new = views old ++ [empty_line; closing g] /\ ~ (exists a t, old = a ++ [t] /\ ends_blank (g_str t))
  end.
(** Spaces behind the last token are not printed any more, but for optional ones. *)
Definition discarded (s s' : suffix) : Prop := (sf_space s = true /\ sf_opt s = false /\ s' = Suffix true false true) \/ (~ (sf_space s = true /\ sf_opt s = false) /\ s' = s).
Definition without_spaces (o o' : option (list suffix)) : Prop :=
  match o, o' with Some l, Some l' => Forall2 discarded l l' | None, None => True | _, _ => False end.
Lemma trim_spec : forall o, without_spaces o (option_map trim o).
Proof.
  intros [l|]; [|exact I]. cbn [option_map without_spaces]. unfold trim. induction l as [|[sp op dc] l IH]; cbn [List.map]; constructor; [|exact IH]. unfold discarded. destruct sp, op; cbn; intuition discriminate.
Qed.
(** The links of directives: that of the old #ifndef is cut. *)
Definition unlinked (h : header) (old : option (gtok * gtok * gtok)) (h' : header) : Prop :=
  match old with
  | Some (i, _, _) => h_nx h' (g_id i) = None /\ forall j, j <> g_id i -> h_nx h' j = h_nx h j
  | None => forall j, h_nx h' j = h_nx h j
  end.
Definition rewritten (h : header) (g : bytes) (old : option (gtok * gtok * gtok)) (h' : header) : Prop :=
  exists pre post sep mid, separator (lead pre) sep /\
    (match old with
     | Some (i, d, e) => old_guard h i d e pre post
     | None => (~ exists i d e pre post, old_guard h i d e pre post) /\ pre = h_pre h (h_first h) /\ post = []
     end) /\
    (let start := views (lead pre) ++ sep ++ opening g ++ views (body pre) ++ views post in
     if h_first h =? h_eof h then views mid = start else views (h_pre h' (h_first h)) = start /\ mid = h_pre h (h_eof h)) /\
    closed_by mid (option_map snd old) g (h_pre h' (h_eof h)) /\
    (forall j, j <> h_first h -> j <> h_eof h -> h_pre h' j = h_pre h j) /\
    (match mid, old with [], None => without_spaces (h_prev h) (h_prev h') | _, _ => h_prev h' = h_prev h end) /\ unlinked h old h'.

Definition opened (h : header) (g : bytes) (pre post : list gtok) (h' : header) : Prop :=
  exists l n line, separator (lead pre) (views line) /\ views l = views (lead pre) ++ views line ++ opening g ++ views (body pre) ++ views post /\
    h_some h' = h_some h /\ h_first h' = h_first h /\ h_eof h' = h_eof h /\ h_prev h' = h_prev h /\ h_next h' = n /\
    (forall j, h_pre h' j = upd (h_pre h) (h_first h) l j) /\ NoDup (ids l) /\ l <> [] /\ (forall t, In t pre \/ In t post -> In t l).
Lemma remove_mid : forall a t b, NoDup (ids (a ++ t :: b)) -> NoDup (ids (a ++ b)).
Proof. intros a t b H. rewrite ids_app in *. cbn [ids List.map] in H. apply NoDup_remove_1 in H. exact H. Qed.
Lemma open_old : forall h g i d e pre post, NoDup (ids (h_pre h (h_first h))) -> (forall t, In t (h_pre h (h_first h)) -> g_id t < h_next h) -> old_guard h i d e pre post ->
  exists h', open_guard h g (Some (i, d, e)) = Some h' /\ unlinked h (Some (i, d, e)) h' /\ opened h g pre post h'.
Proof.
  intros h g i d e pre post N FR (A1 & A2 & A3 & _). unfold open_guard, remove_from. cbn [unlink h_pre]. rewrite A1 in *. rewrite list_remove_at by exact N. cbn [bind set_pre h_first h_pre]. cbn [unlink h_first h_pre h_next].
  set (h1 := set_pre _ _ _ _). assert (P1 : h_pre h1 (h_first h) = pre ++ d :: post) by apply upd_same. pose proof (remove_mid _ _ _ N) as N1.
  assert (DC : comment d = false) by (unfold comment; rewrite A3; reflexivity). destruct (lead_app pre d post DC) as [L1 L2].
  destruct (emit_ifndef_spec h1 (h_first h) (ifndef_line g)) as (n & line & u & E & LN & V & SP & N2 & IDS & _).
  { rewrite P1. exact N1. } { rewrite P1. intros t Ht. cbn. apply FR. apply in_app_or in Ht. apply in_or_app. destruct Ht as [Ht|Ht]; [left; exact Ht|right; right; exact Ht]. }
  change (emit_ifndef h1 (h_first h1)) with (emit_ifndef h1 (h_first h)). change (ifndef_text g) with (ifndef_line g). rewrite E. cbn [bind]. change (define_text g) with (define_line g). rewrite P1, L1, L2 in *. cbn [set_pre h_first h_pre]. change (h_first h1) with (h_first h). rewrite upd_same.
  assert (R1 : lead pre ++ line ++ u :: body pre ++ d :: post = (lead pre ++ line ++ u :: body pre) ++ d :: post) by (rewrite <- !app_assoc; reflexivity). rewrite R1 in *. rewrite list_remove_at by exact N2. cbn [bind set_pre h_first h_pre h_next]. change (h_first h1) with (h_first h). rewrite upd_same.
  apply remove_mid in N2. assert (R2 : (lead pre ++ line ++ u :: body pre) ++ post = (lead pre ++ line) ++ u :: body pre ++ post) by (rewrite <- !app_assoc; reflexivity). rewrite R2 in *. rewrite append_after_at by exact N2. cbn [bind]. eexists. split; [reflexivity|]. split; [cbn; split; [rewrite Nat.eqb_refl; reflexivity|intros j Hj; apply Nat.eqb_neq in Hj; rewrite Hj; reflexivity]|].
  set (def := GTok n KDefine (define_line g)). exists ((lead pre ++ line) ++ u :: def :: body pre ++ post), (S n), line. split; [exact SP|]. split; [rewrite !views_app; cbn [views List.map]; rewrite V; fold (views (body pre ++ post)); rewrite views_app; rewrite <- app_assoc; reflexivity|].
  cbn [set_pre h_some h_first h_eof h_prev h_next h_pre]. repeat split.
  - intros j. unfold upd. destruct (j =? h_first h) eqn:EJ; [reflexivity|]. cbn. unfold upd. rewrite EJ. reflexivity.
  - change ((lead pre ++ line) ++ u :: def :: body pre ++ post) with ((lead pre ++ line) ++ [u] ++ def :: body pre ++ post). rewrite app_assoc. apply fresh_nodup; [rewrite <- app_assoc; exact N2|]. apply fresh_lt with n; [|cbn; lia]. intros t Ht. rewrite <- app_assoc in Ht. cbn [app] in Ht. rewrite <- app_assoc in Ht.
    assert (B1 : forall t, In t pre \/ In t post -> g_id t < n). { intros x Hx. eapply Nat.lt_le_trans; [|exact LN]. cbn. apply FR. apply in_or_app. destruct Hx as [Hx|Hx]; [left; exact Hx|right; right; right; exact Hx]. }
    assert (B2 : forall t, In t (lead pre ++ body pre) -> In t pre) by (intros x Hx; rewrite lead_body in Hx; exact Hx).
    apply in_app_or in Ht. destruct Ht as [Ht|Ht]; [apply B1; left; apply B2; apply in_or_app; left; exact Ht|]. apply in_app_or in Ht. destruct Ht as [Ht|[<-|Ht]]; [apply IDS; apply in_or_app; left; exact Ht|apply IDS; apply in_or_app; right; left; reflexivity|]. apply in_app_or in Ht. destruct Ht as [Ht|Ht]; [apply B1; left; apply B2; apply in_or_app; right; exact Ht|apply B1; right; exact Ht].
  - destruct (lead pre ++ line); discriminate.
  - intros t Ht. rewrite <- app_assoc. rewrite <- (lead_body pre) in Ht. rewrite !in_app_iff in *. cbn [In]. rewrite in_app_iff. tauto.
Qed.
Lemma open_new : forall h g, NoDup (ids (h_pre h (h_first h))) -> (forall t, In t (h_pre h (h_first h)) -> g_id t < h_next h) ->
  exists h', open_guard h g None = Some h' /\ unlinked h None h' /\ opened h g (h_pre h (h_first h)) [] h'.
Proof.
  intros h g N FR. unfold open_guard. lines. cbn [bind]. destruct (emit_ifndef_spec h (h_first h) (ifndef_line g) N FR) as (n & line & u & E & LN & V & SP & N2 & IDS & _). rewrite E. cbn [bind set_pre h_first h_pre h_next]. rewrite upd_same. set (pre := h_pre h (h_first h)) in *.
  assert (R2 : lead pre ++ line ++ u :: body pre = (lead pre ++ line) ++ u :: body pre) by (rewrite <- !app_assoc; reflexivity). rewrite R2 in *. rewrite append_after_at by exact N2. cbn [bind]. eexists. split; [reflexivity|]. split; [intros j; reflexivity|].
  set (def := GTok n KDefine (define_line g)). exists ((lead pre ++ line) ++ u :: def :: body pre), (S n), line. split; [exact SP|]. split; [rewrite !views_app; cbn [views List.map]; rewrite V; rewrite <- app_assoc, app_nil_r; reflexivity|].
  cbn [set_pre h_some h_first h_eof h_prev h_next h_pre]. repeat split.
  - intros j. unfold upd. destruct (j =? h_first h) eqn:EJ; [reflexivity|]. reflexivity.
  - change ((lead pre ++ line) ++ u :: def :: body pre) with ((lead pre ++ line) ++ [u] ++ def :: body pre). rewrite app_assoc. apply fresh_nodup; [rewrite <- app_assoc; exact N2|]. apply fresh_lt with n; [|cbn; lia]. intros t Ht. rewrite <- app_assoc in Ht. cbn [app] in Ht. rewrite <- app_assoc in Ht.
    assert (B2 : forall t, In t (lead pre ++ body pre) -> g_id t < n) by (intros x Hx; rewrite lead_body in Hx; eapply Nat.lt_le_trans; [exact (FR x Hx)|exact LN]).
    apply in_app_or in Ht. destruct Ht as [Ht|Ht]; [apply B2; apply in_or_app; left; exact Ht|]. apply in_app_or in Ht. destruct Ht as [Ht|[<-|Ht]]; [apply IDS; apply in_or_app; left; exact Ht|apply IDS; apply in_or_app; right; left; reflexivity|]. apply B2; apply in_or_app; right; exact Ht.
  - destruct (lead pre ++ line); discriminate.
  - intros t [Ht|[]]. rewrite <- app_assoc. rewrite <- (lead_body pre) in Ht. rewrite !in_app_iff in *. cbn [In]. tauto.
Qed.
Lemma close_old : forall h g i d e, NoDup (ids (h_pre h (h_eof h))) -> In e (h_pre h (h_eof h)) -> exists h', close_guard h g (Some (i, d, e)) = Some h' /\
  closed_by (h_pre h (h_eof h)) (Some e) g (h_pre h' (h_eof h)) /\ h_prev h' = h_prev h /\ h_nx h' = h_nx h /\ forall j, j <> h_eof h -> h_pre h' j = h_pre h j.
Proof.
  intros h g i d e N HI. apply in_split in HI. destruct HI as (a & b & E). rewrite E in N. unfold close_guard, remove_from. rewrite E, list_remove_at by exact N. cbn [bind set_pre h_eof h_pre]. rewrite upd_same. eexists. split; [reflexivity|]. cbn [set_pre h_eof h_pre h_prev]. rewrite upd_same. split; [|split; [first [reflexivity|apply trim_spec]|split; [reflexivity|]]].
  - exists a, b. split; [reflexivity|]. rewrite !views_app, <- app_assoc. reflexivity.
  - intros j Hj. rewrite !upd_other by exact Hj. reflexivity.
Qed.
Lemma last_snoc : forall (a : list gtok) x d, last (a ++ [x]) d = x.
Proof. induction a as [|y a IH]; intros x d; [reflexivity|]. cbn [app]. rewrite <- (IH x d) at 2. destruct (a ++ [x]) eqn:E; [destruct a; discriminate|reflexivity]. Qed.
Lemma last_split : forall r t, exists a : list gtok, t :: r = a ++ [last r t].
Proof.
  intros r t. destruct r as [|y r]; [exists []; reflexivity|]. destruct (@exists_last _ (y :: r) ltac:(discriminate)) as (a & x & E). rewrite E, last_snoc. exists (t :: a). reflexivity.
Qed.
Lemma close_new : forall h g, exists h', close_guard h g None = Some h' /\
  closed_by (h_pre h (h_eof h)) None g (h_pre h' (h_eof h)) /\ (match h_pre h (h_eof h) with [] => without_spaces (h_prev h) (h_prev h') | _ :: _ => h_prev h' = h_prev h end) /\ h_nx h' = h_nx h /\ forall j, j <> h_eof h -> h_pre h' j = h_pre h j.
Proof.
  intros h g. unfold close_guard. cbn [bind]. eexists. split; [reflexivity|]. unfold ensure_line. destruct (h_pre h (h_eof h)) as [|t r] eqn:E.
  - cbn [set_pre h_eof h_pre h_prev]. rewrite !upd_same. split; [|split; [first [reflexivity|apply trim_spec]|split; [reflexivity|]]].
    + right. split; [reflexivity|]. intros (a & u & Q & _). destruct a; discriminate.
    + intros j Hj. rewrite !upd_other by exact Hj. reflexivity.
  - destruct (last_split r t) as (a & EL).
   destruct (verbatim2 (g_str (last r t))) eqn:EV.
    + cbn [set_pre h_eof h_pre h_prev]. rewrite upd_same, E. split; [|split; [first [reflexivity|apply trim_spec]|split; [reflexivity|]]].
      * left. split; [rewrite views_app; reflexivity|]. exists a, (last r t). split; [exact EL|apply verbatim2_spec; exact EV].
      * intros j Hj. rewrite upd_other by exact Hj. reflexivity.
    + cbn [set_pre h_eof h_pre h_prev]. rewrite !upd_same. split; [|split; [first [reflexivity|apply trim_spec]|split; [reflexivity|]]].
      * right. split; [rewrite <- app_assoc, views_app; reflexivity|]. intros (b & u & Q1 & Q2). rewrite EL in Q1. apply app_inj_tail in Q1. destruct Q1 as [_ <-]. apply verbatim2_false in EV. contradiction.
      * intros j Hj. rewrite !upd_other by exact Hj. reflexivity.
Qed.
Lemma rewrite_spec : forall h g tks, wf h -> sense_ok h g (Replace tks) -> exists h', rewrite_guard h g tks = Some h' /\ rewritten h g tks h'.
Proof.
  intros h g tks (N & N' & FR & LK) S. unfold rewrite_guard. inversion S as [|NG|i d e pre post OG NG]; subst.
  - destruct (open_new h g N (fun t Ht => FR t (or_introl Ht))) as (h1 & -> & UL & l & n & line & SP & V & S1 & S2 & S3 & S4 & S5 & S6 & NL & NE & _). cbn [bind]. destruct (close_new h1 g) as (h2 & -> & C1 & C2 & CN & C3). exists h2. split; [reflexivity|]. rewrite S3 in *.
    exists (h_pre h (h_first h)), [], (views line), (h_pre h1 (h_eof h)). split; [exact SP|]. split; [auto|]. split.
    + cbv zeta. destruct (Nat.eqb_spec (h_first h) (h_eof h)) as [EF|EF]; [rewrite S6, <- EF, upd_same; exact V|]. split; [rewrite C3 by exact EF; rewrite S6, upd_same; exact V|rewrite S6, upd_other by congruence; reflexivity].
    + split; [exact C1|]. split; [intros j J1 J2; rewrite C3, S6, upd_other by assumption; reflexivity|]. rewrite S4 in C2. split; [exact C2|]. unfold unlinked in *. rewrite CN. exact UL.
  - destruct (open_old h g i d e pre post N (fun t Ht => FR t (or_introl Ht)) OG) as (h1 & -> & UL & l & n & line & SP & V & S1 & S2 & S3 & S4 & S5 & S6 & NL & NE & KP). cbn [bind]. pose proof OG as (A1 & A2 & A3 & A4 & A5 & A6 & A7 & A8). destruct (LK i ltac:(rewrite A1; apply in_or_app; right; left; reflexivity) A2) as (e' & L1 & L2). assert (e' = e) as -> by congruence. rewrite A8 in L2.
    destruct (close_old h1 g i d e) as (h2 & -> & C1 & C2 & CN & C3).
    { rewrite S3, S6. unfold upd. destruct (_ =? _); assumption. }
    { rewrite S3, S6. unfold upd. destruct (Nat.eqb_spec (h_eof h) (h_first h)) as [EF|EF]; [|exact L2]. rewrite EF, A1 in L2. apply KP. apply in_app_or in L2. destruct L2 as [L2|[L2|[L2|L2]]]; [left; exact L2|congruence|congruence|right; exact L2]. }
    exists h2. split; [reflexivity|]. rewrite S3 in *. exists pre, post, (views line), (h_pre h1 (h_eof h)). split; [exact SP|]. split; [exact OG|]. split.
    + cbv zeta. destruct (Nat.eqb_spec (h_first h) (h_eof h)) as [EF|EF]; [rewrite S6, <- EF, upd_same; exact V|]. split; [rewrite C3 by exact EF; rewrite S6, upd_same; exact V|rewrite S6, upd_other by congruence; reflexivity].
    + split; [exact C1|]. split; [intros j J1 J2; rewrite C3, S6, upd_other by assumption; reflexivity|]. rewrite S4 in C2. split; [destruct (h_pre h1 (h_eof h)); exact C2|]. unfold unlinked in *. rewrite CN. exact UL.
Qed.

(** ** C27: the text of the guard. *)
Definition guard_of (c d : byte) : Prop :=
  if (c =c "."%char) || (c =c "/"%char) || (c =c "-"%char) then d = "_"%char
  else if inrange "a"%char "z"%char c then nat_of_ascii d + 32 = nat_of_ascii c else d = c.
Theorem C27_guard : forall p n, exists ps g, path_to_guard (Some p) n = Some g /\
  join ["/"%char] ps = p /\ Forall (fun q => ~ In "/"%char q) ps /\
  Forall2 guard_of (if length ps <? n then p else join ["/"%char] (drop_empty (skipn (length ps - n) ps))) g.
Proof.
  intros p n. destruct (C49_path_slice p n) as (ps & J & _ & F & E). exists ps. unfold path_to_guard. rewrite E. set (s := if length ps <? n then p else _). eexists. split; [reflexivity|]. split; [exact J|]. split; [exact F|]. clear. induction s as [|c s IH]; cbn [List.map]; constructor; [|exact IH]. unfold guard_of, guard_byte. destruct (_ || _ || _); [reflexivity|]. unfold toupper. destruct (inrange _ _ c) eqn:R; [|reflexivity]. destruct c as [[] [] [] [] [] [] [] []]; try discriminate R; reflexivity.
Qed.
(** A C identifier. *)
Definition ident_start (c : byte) : bool := inrange "a"%char "z"%char c || inrange "A"%char "Z"%char c || (c =c "_"%char).
Definition ident_byte (c : byte) : bool := ident_start c || isdigit c.
Definition identifier (s : bytes) : Prop := exists c r, s = c :: r /\ ident_start c = true /\ Forall (fun c => ident_byte c = true) r.
Definition plain_byte (c : byte) : bool := ident_byte c || (c =c "."%char) || (c =c "/"%char) || (c =c "-"%char).
(** The path consists of letters, digits and these separators and does not start with a digit. *)
Theorem C27_identifier_partial : forall p n s g, path_slice p n = Some s -> Forall (fun c => plain_byte c = true) s -> (exists c r, s = c :: r /\ isdigit c = false) ->
  path_to_guard (Some p) n = Some g -> identifier g /\ Forall (fun c => inrange "a"%char "z"%char c = false) g.
Proof.
  intros p n s g E F (c & r & -> & D) G. unfold path_to_guard in G. rewrite E in G. assert (EG : g = List.map guard_byte (c :: r)) by congruence. subst g. cbn [List.map].
  assert (P : forall x, plain_byte x = true -> ident_byte (guard_byte x) = true /\ inrange "a"%char "z"%char (guard_byte x) = false /\ (isdigit x = false -> ident_start (guard_byte x) = true)) by (intros [[] [] [] [] [] [] [] []] H; vm_compute in H |- *; try discriminate H; repeat split; reflexivity || discriminate).
  inversion F as [|? ? F1 F2]; subst. destruct (P c F1) as (P1 & P2 & P3). split.
  - exists (guard_byte c), (List.map guard_byte r). split; [reflexivity|]. split; [exact (P3 D)|]. clear - F2 P. induction F2; cbn [List.map]; constructor; [apply P; assumption|assumption].
  - constructor; [exact P2|]. clear - F2 P. induction F2; cbn [List.map]; constructor; [apply P; assumption|assumption].
Qed.
(** Not for every path: digits, other bytes. *)
Theorem C27_identifier_refuted : exists p n g, is_path_header p = true /\ n <> 0 /\ path_to_guard (Some p) n = Some g /\ ~ identifier g.
Proof.
  exists (s2b "/src/3d.h"), 1, (s2b "3D_H"). repeat split; try discriminate. intros (c & r & H & I & _). inversion H; subst. discriminate I.
Qed.
Theorem C27_bytes_refuted : exists p n g, is_path_header p = true /\ n <> 0 /\ path_to_guard (Some p) n = Some g /\ (exists r, g = "C"%char :: r) /\ ~ identifier g.
Proof.
  exists (s2b "/src/c++.h"), 1, (s2b "C++_H"). repeat split; try discriminate; [eexists; reflexivity|]. intros (c & r & H & _ & F). inversion H; subst. inversion F as [|? ? Q _]. discriminate Q.
Qed.

(** ** C27: the header. *)
Theorem C27_rewritten : forall n path realpath h, wf h -> exists h', cpp_include_guard n path realpath h = Some h' /\
  (h' = h /\ (n = 0 \/ (forall base, path <> base ++ s2b ".h") \/ realpath path = None \/ h_some h = false \/ exists g, path_to_guard (realpath path) n = Some g /\ guarded h g) \/
   exists g old, path_to_guard (realpath path) n = Some g /\ ~ guarded h g /\ rewritten h g old h').
Proof.
  intros n path realpath h W. unfold cpp_include_guard. destruct (Nat.eqb_spec n 0) as [->|NZ]; [exists h; split; [reflexivity|left; auto]|]. destruct (is_path_header path) eqn:EH; cbn [negb].
  2:{ exists h. split; [reflexivity|]. left. split; [reflexivity|]. right. left. intros base Q. assert (is_path_header path = true) by (apply C49_header; eauto). congruence. }
  destruct (path_to_guard (realpath path) n) as [g|] eqn:EG.
  2:{ exists h. split; [reflexivity|]. left. split; [reflexivity|]. right. right. left. unfold path_to_guard in EG. destruct (realpath path) as [p|]; [|reflexivity]. destruct (C49_path_slice p n) as (ps & _ & _ & _ & E). rewrite E in EG. discriminate. }
  destruct (h_some h) eqn:ES.
  2:{ unfold sense. rewrite ES. cbn [negb]. exists h. split; [reflexivity|]. left. auto 6. }
  pose proof (sense_spec h g W ES) as SO. destruct (sense h _ _ _) as [| |tks].
  - exists h. split; [reflexivity|]. left. split; [reflexivity|]. inversion SO. right. right. right. right. eauto.
  - inversion SO.
  - destruct (rewrite_spec h g tks W SO) as (h' & E & R). exists h'. split; [exact E|]. right. exists g, tks. split; [reflexivity|]. split; [|exact R]. inversion SO as [|NG|]; subst; [|assumption]. intros (i & d & e & pre & post & O & _). apply NG. eauto 6.
Qed.
Lemma words_define : forall g, g <> [] -> Forall (fun c => isspace c = false) g -> words true (define_line g) = 2.
Proof.
  intros g NE F. unfold define_line. cbn. f_equal. destruct F as [|c r F1 F2]; [congruence|]. cbn [app words]. rewrite F1. cbn [negb andb]. cbn [plus]. f_equal. clear NE F1. induction F2 as [|x r F1 F2 IH]; [reflexivity|]. cbn [app words andb]. rewrite F1. exact IH.
Qed.
(** A header that starts with comments and the guard, as the rewritten one does once it is read
    again, stays as it is. *)
Theorem C27_right : forall n path realpath h g i d e pre post, wf h -> path_to_guard (realpath path) n = Some g -> g <> [] -> Forall (fun c => isspace c = false) g ->
  h_pre h (h_first h) = pre ++ i :: d :: post -> (forall t, In t pre -> g_kind t <> KIfndef /\ g_kind t <> KDefine) ->
  view i = (KIfndef, ifndef_line g) -> view d = (KDefine, define_line g) -> h_nx h (g_id i) = Some e -> view e = (KEndif, endif_line g) -> h_parent h (g_id e) = h_eof h ->
  cpp_include_guard n path realpath h = Some h.
Proof.
  intros n path realpath h g i d e pre post W G NE SP P1 P2 VI VD NX VE PE. destruct (C27_rewritten n path realpath h W) as (h' & E & [[-> _]|(g' & old & G' & NG & _)]); [exact E|]. exfalso. assert (g' = g) as -> by congruence. apply NG. unfold view in *. exists i, d, e, pre, post. assert (TD : g_str d = define_line g) by congruence. split; [|repeat split; congruence]. repeat split; try congruence; try (apply P2; assumption). rewrite TD. apply words_define; assumption.
Qed.

(** ** Concrete cases. *)
Definition ex_t (i : nat) (k : kind) (s : string) (n : nat) : gtok := GTok i k (s2b s ++ repeat NL n).
Definition ex_real (p : bytes) : option bytes := Some (s2b "/usr/src/" ++ p).
(** A header with a comment and an outdated guard; token 0 is the first, token 1 the last. *)
Definition ex_h (g : string) : header :=
  let e := ex_t 4 KEndif ("#endif /* !" ++ g ++ " */") 1 in
  Header true 0 1 (fun j => match j with 0 => [ex_t 1 KComment "/* c */" 2; ex_t 2 KIfndef ("#ifndef " ++ g) 1; ex_t 3 KDefine ("#define " ++ g) 2; ex_t 5 KOther "#include <x.h>" 1] | 1 => [e] | _ => [] end)
    (fun i => if i =? 2 then Some e else None) (fun i => if i =? 4 then 1 else 0) (Some [Suffix true false false]) 6.
Lemma ex_wf : forall g, wf (ex_h g).
Proof.
  intros g. split; [repeat constructor; cbn; lia|]. split; [repeat constructor; cbn; lia|]. split.
  - intros t H. cbn in H. destruct H as [H|H]; repeat destruct H as [<-|H]; cbn; try lia.
  - intros i H K. cbn [ex_h h_pre h_first] in H. repeat destruct H as [<-|H]; try discriminate K; [|destruct H]. eexists. split; [reflexivity|]. left. reflexivity.
Qed.
Definition shown (h : option header) : list bytes := match h with Some h => List.map g_str (h_pre h 0) ++ List.map g_str (h_pre h 1) | None => [] end.
Example C27_ex_old : shown (cpp_include_guard 2 (s2b "a-b.h") ex_real (ex_h "OLD_H")) =
  List.map (fun '(s, n) => s2b s ++ repeat NL n) [("/* c */", 2); ("#ifndef SRC_A_B_H", 1); ("#define SRC_A_B_H", 2); ("#include <x.h>", 1); ("#endif /* !SRC_A_B_H */", 1)]%string.
Proof. vm_compute. reflexivity. Qed.
Example C27_ex_right : cpp_include_guard 2 (s2b "a-b.h") ex_real (ex_h "SRC_A_B_H") = Some (ex_h "SRC_A_B_H").
Proof. reflexivity. Qed.
Definition ex_none : header := Header true 0 1 (fun j => match j with 0 => [ex_t 1 KComment "/* c */" 1] | _ => [] end) (fun _ => None) (fun _ => 0) (Some [Suffix true true false; Suffix true false false]) 2.
Example C27_ex_new : shown (cpp_include_guard 1 (s2b "x.h") ex_real ex_none) =
  List.map (fun '(s, n) => s2b s ++ repeat NL n) [("/* c */", 1); ("", 1); ("#ifndef X_H", 1); ("#define X_H", 2); ("", 1); ("#endif /* !X_H */", 1)]%string.
Proof. vm_compute. reflexivity. Qed.
(** A blank in the name of the header: its guard is never recognised, another one is added by each run. *)
Theorem C27_blank_refuted : exists n path realpath h h' g i d e pre post, wf h /\ path_to_guard (realpath path) n = Some g /\
  h_pre h (h_first h) = pre ++ i :: d :: post /\ (forall t, In t pre -> g_kind t <> KIfndef /\ g_kind t <> KDefine) /\
  view i = (KIfndef, ifndef_line g) /\ view d = (KDefine, define_line g) /\ h_nx h (g_id i) = Some e /\ view e = (KEndif, endif_line g) /\ h_parent h (g_id e) = h_eof h /\
  cpp_include_guard n path realpath h = Some h' /\ length (h_pre h' (h_first h)) = length (h_pre h (h_first h)) + 2.
Proof.
  exists 1, (s2b "a b.h"), ex_real, (ex_h "A B_H"). destruct (cpp_include_guard 1 (s2b "a b.h") ex_real (ex_h "A B_H")) as [h'|] eqn:E; [|exfalso; vm_compute in E; discriminate].
  exists h', (s2b "A B_H"), (ex_t 2 KIfndef "#ifndef A B_H" 1), (ex_t 3 KDefine "#define A B_H" 2), (ex_t 4 KEndif "#endif /* !A B_H */" 1), [ex_t 1 KComment "/* c */" 2], [ex_t 5 KOther "#include <x.h>" 1].
  split; [apply ex_wf|]. split; [vm_compute; reflexivity|]. split; [reflexivity|]. split; [intros t [<-|[]]; split; discriminate|]. do 5 (split; [reflexivity|]). split; [reflexivity|].
  assert (L : option_map (fun h => length (h_pre h 0)) (cpp_include_guard 1 (s2b "a b.h") ex_real (ex_h "A B_H")) = Some 6) by (vm_compute; reflexivity). rewrite E in L. cbn [option_map] in L. change (h_first (ex_h "A B_H")) with 0. assert (Q : length (h_pre h' 0) = 6) by congruence. rewrite Q. reflexivity.
Qed.

Print Assumptions C27_guard.
Print Assumptions C27_identifier_partial.
Print Assumptions C27_rewritten.
Print Assumptions C27_right.
Print Assumptions C27_identifier_refuted.
Print Assumptions C27_bytes_refuted.
Print Assumptions C27_blank_refuted.
