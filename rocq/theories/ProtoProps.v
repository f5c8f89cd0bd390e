(** Names of arguments in prototypes: C65. *)
From Coq Require Import Permutation.
From Verif Require Import Base TokenModel StreamModel StreamProofs TokListModel TokListProofs StreamProps TokListProps StaticProps StmtProps ProtoModel.

(** ** Specification. *)
(** The arguments in the order in which they are read, those of function pointers included; of
    each the identifiers behind its type. *)
Definition calls (args : list (list id)) : list pcall := flat_map (fun a => CArg :: map CIdent a) args.
(** The token in front of an identifier tells that it is the name of the argument. *)
Definition names_arg (x : lex) (t : id) : Prop :=
  exists a pv b, x_toks x = a ++ pv :: t :: b /\ (tyof x pv = T_STAR \/ flagged F_TYPE x pv = true \/ flagged F_QUALIFIER x pv = true).
(** Some arguments are named, some are not and there is nothing else to them. *)
Definition mixed (x : lex) (args : list (list id)) : Prop :=
  (exists a, In a args /\ a <> []) /\ In [] args /\ Forall (Forall (names_arg x)) args.
(** The last identifier of each argument. *)
Definition name_of (a : list id) : list id := match rev a with [] => [] | t :: _ => [t] end.
Definition arg_names (args : list (list id)) : list id := flat_map name_of args.
(** What is known about the tokens reported: each is read once and none is the first one. *)
Definition reads (x : lex) (args : list (list id)) : Prop :=
  NoDup (concat args) /\ Forall (fun t => exists a pv b, x_toks x = a ++ pv :: t :: b /\ tyof x t <> T_EOF) (concat args).

(** ** Proofs. *)
Definition last_name (a : list id) : option id := hd_error (rev a).
Lemma prev_adj : forall (a : list id) pv t b, NoDup (a ++ pv :: t :: b) -> prev_of (a ++ pv :: t :: b) t = Some pv.
Proof.
  intros a pv t b ND. replace (a ++ pv :: t :: b) with ((a ++ [pv]) ++ t :: b) in * by (rewrite <- app_assoc; reflexivity).
  unfold prev_of. destruct (nodup_split _ _ _ ND) as [N _]. rewrite prev_from_split by exact N. rewrite rev_app_distr. reflexivity.
Qed.
Definition okname (x : lex) (t : id) : bool := match prev_of (x_toks x) t with Some pv => ttype_eqb (tyof x pv) T_STAR || flagged F_TYPE x pv || flagged F_QUALIFIER x pv | None => false end.
Lemma okname_spec : forall x t, NoDup (x_toks x) -> (exists a pv b, x_toks x = a ++ pv :: t :: b /\ tyof x t <> T_EOF) -> (okname x t = true <-> names_arg x t).
Proof.
  intros x t ND (a & pv & b & E & _). assert (P : prev_of (x_toks x) t = Some pv) by (rewrite E in *; apply prev_adj; exact ND).
  unfold okname. rewrite P, !orb_true_iff, ttype_eqb_eq. split.
  - intros H. exists a, pv, b. split; [exact E|tauto].
  - intros (a' & pv' & b' & E' & H). assert (P' : prev_of (x_toks x) t = Some pv') by (rewrite E' in *; apply prev_adj; exact ND). rewrite P in P'. injection P' as <-. tauto.
Qed.
Lemma collect_app : forall x cs ds s, pcollect x (cs ++ ds) s = match pcollect x cs s with Some s => pcollect x ds s | None => None end.
Proof. intros x. induction cs as [|c cs IH]; intros ds s; [reflexivity|]. cbn [app pcollect]. destruct (pstep x c s); [apply IH|reflexivity]. Qed.
Definition slot_of (x : lex) (a : list id) : option id := hd_error (rev (filter (okname x) a)).
Lemma collect_idents : forall x a l o g, Forall (fun t => prev_of (x_toks x) t <> None) a ->
  pcollect x (map CIdent a) (Proto (l ++ [o]) g) = Some (Proto (l ++ [match slot_of x a with Some t => Some t | None => o end]) (g || existsb (fun t => negb (okname x t)) a)).
Proof.
  intros x. induction a as [|t a IH]; intros l o g F; [cbn; rewrite orb_false_r; reflexivity|]. inversion F as [|? ? Ft Fa]; subst.
  cbn [map pcollect pstep]. unfold proto_ident at 1. cbn [p_args p_ignore]. destruct (l ++ [o]) as [|u r] eqn:E; [destruct l; discriminate|]. rewrite <- E.
  destruct (prev_of (x_toks x) t) as [pv|] eqn:P; [|congruence]. rewrite removelast_last.
  assert (K : okname x t = (ttype_eqb (tyof x pv) T_STAR || flagged F_TYPE x pv || flagged F_QUALIFIER x pv)) by (unfold okname; rewrite P; reflexivity). rewrite <- K.
  unfold slot_of. cbn [filter existsb]. destruct (okname x t); cbn [negb orb].
  - rewrite (IH l (Some t) g Fa). unfold slot_of. cbn [rev]. destruct (rev (filter (okname x) a)); reflexivity.
  - rewrite (IH l o true Fa). rewrite orb_true_r. reflexivity.
Qed.
Lemma collect_args : forall x args l g, Forall (Forall (fun t => prev_of (x_toks x) t <> None)) args ->
  pcollect x (calls args) (Proto l g) = Some (Proto (l ++ map (slot_of x) args) (g || existsb (existsb (fun t => negb (okname x t))) args)).
Proof.
  intros x. induction args as [|a args IH]; intros l g F; [cbn; rewrite app_nil_r, orb_false_r; reflexivity|]. inversion F as [|? ? Fa F']; subst.
  change (calls (a :: args)) with ((CArg :: map CIdent a) ++ calls args). rewrite collect_app. cbn [pcollect pstep]. unfold proto_arg. cbn [p_args p_ignore].
  rewrite (collect_idents x a l None g Fa), IH by exact F'. rewrite <- app_assoc. cbn [map app existsb]. rewrite orb_assoc. destruct (slot_of x a); reflexivity.
Qed.
Definition somes (l : list (option id)) : list id := flat_map (fun o => match o with Some t => [t] | None => [] end) l.
Lemma remove_names_fold : forall l x, remove_names l x = fold_left (fun o t => match o with Some x => remove t x | None => None end) (somes l) (Some x).
Proof.
  assert (N : forall l, fold_left (fun o t => match o with Some x => remove t x | None => None end) l None = None) by (induction l; [reflexivity|assumption]).
  induction l as [|[t|] l IH]; intros x; [reflexivity| |apply IH]. cbn [remove_names somes flat_map app fold_left]. destruct (remove t x) as [y|]; [apply IH|]. symmetry. apply N.
Qed.
Lemma all_unnamed : forall l, (length l =? length (filter unnamed l)) = true <-> somes l = [].
Proof.
  intros l. rewrite Nat.eqb_eq. assert (B : forall l, length (filter unnamed l) <= length l) by (induction l0 as [|[t|] l0 IH]; cbn; lia). induction l as [|[t|] l IH]; [tauto| |].
  - cbn. split; [intros H; assert (K := B l); lia|discriminate].
  - cbn [filter unnamed length somes flat_map app]. rewrite <- IH. lia.
Qed.
Lemma none_unnamed : forall l, (length (filter unnamed l) =? 0) = true <-> ~ In None l.
Proof.
  intros l. rewrite Nat.eqb_eq. induction l as [|[t|] l IH]; [cbn; tauto| |]; cbn [filter unnamed length In]; [rewrite IH|]; intuition (congruence || lia).
Qed.
Lemma last_in_rev : forall (a : list id) t, hd_error (rev a) = Some t -> In t a.
Proof. intros a t H. apply in_rev. destruct (rev a); [discriminate|]. injection H as ->. left. reflexivity. Qed.
Lemma names_incl : forall args t, In t (arg_names args) -> In t (concat args).
Proof.
  induction args as [|a args IH]; intros t H; [exact H|]. cbn [arg_names flat_map] in H. cbn [concat]. apply in_app_or in H. apply in_or_app. destruct H as [H|H]; [left|right; apply IH; exact H].
  unfold name_of in H. destruct (rev a) as [|u r] eqn:E; [destruct H|]. destruct H as [<-|[]]. apply last_in_rev. rewrite E. reflexivity.
Qed.
Lemma names_nodup : forall args, NoDup (concat args) -> NoDup (arg_names args).
Proof.
  induction args as [|a args IH]; intros ND; [constructor|]. cbn [concat] in ND. cbn [arg_names flat_map]. assert (I := names_incl [a]). cbn [arg_names flat_map concat] in I. rewrite !app_nil_r in I.
  unfold name_of in *. destruct (rev a) as [|u r]; cbn [app].
  - apply IH. clear -ND. induction a as [|c a IHa]; [exact ND|]. inversion ND; auto.
  - constructor.
    + intros K. apply names_incl in K. specialize (I u (or_introl eq_refl)). apply in_split in I. destruct I as (b & c & ->). rewrite <- app_assoc in ND. cbn [app] in ND. apply NoDup_remove_2 in ND. apply ND. apply in_or_app. right. apply in_or_app. right. exact K.
    + apply IH. clear -ND. induction a as [|c a IHa]; [exact ND|]. inversion ND; auto.
Qed.

(** The names are removed, and nothing else, if some arguments are named and some are not;
    otherwise nothing changes.  Comments and directives are kept. *)
Theorem C65_names : forall E x args, wfl E x -> reads x args -> exists y, simple_proto (calls args) x = Some y /\ wfl E y /\
  (mixed x args -> x_toks y = filter (fun t => negb (existsb (Nat.eqb t) (arg_names args))) (x_toks x) /\
     (forall i, tyof y i = tyof x i /\ n_str (x_heap y i) = n_str (x_heap x i)) /\
     Permutation (whole (x_heap x) (x_toks x)) (arg_names args ++ whole (x_heap y) (x_toks y))) /\
  (~ mixed x args -> y = x).
Proof.
  intros E x args W [ND R]. assert (NDx := whole_toks _ _ (wl_nodup _ _ W)).
  assert (PV : Forall (Forall (fun t => prev_of (x_toks x) t <> None)) args).
  { apply Forall_forall. intros a Ha. apply Forall_forall. intros t Ht. rewrite Forall_forall in R. destruct (R t) as (u & pv & v & Et & _); [apply in_concat; eauto|]. rewrite Et in *. rewrite prev_adj by exact NDx. discriminate. }
  assert (OK : existsb (existsb (fun t => negb (okname x t))) args = false <-> Forall (Forall (names_arg x)) args).
  { split.
    - intros H. apply Forall_forall. intros a Ha. apply Forall_forall. intros t Ht. rewrite Forall_forall in R. apply (okname_spec x t NDx); [apply R, in_concat; eauto|]. destruct (okname x t) eqn:K; [reflexivity|]. exfalso.
      assert (Q : existsb (existsb (fun t => negb (okname x t))) args = true); [|congruence]. apply existsb_exists. exists a. split; [exact Ha|]. apply existsb_exists. exists t. rewrite K. auto.
    - intros H. destruct (existsb _ args) eqn:K; [|reflexivity]. apply existsb_exists in K. destruct K as (a & Ha & K). apply existsb_exists in K. destruct K as (t & Ht & K). rewrite Forall_forall in H. specialize (H a Ha). rewrite Forall_forall in H. specialize (H t Ht). rewrite Forall_forall in R. apply (okname_spec x t NDx) in H; [|apply R, in_concat; eauto]. rewrite H in K. discriminate. }
  unfold simple_proto, proto_init. rewrite (collect_args x args [] false PV). cbn [app orb]. unfold proto_leave. cbn [p_args p_ignore].
  destruct (existsb (existsb (fun t => negb (okname x t))) args) eqn:EX.
  { exists x. split; [reflexivity|]. split; [exact W|]. split; [|auto]. intros (_ & _ & K). apply OK in K. discriminate. }
  assert (FN := proj1 OK eq_refl).
  assert (SL : forall a, In a args -> slot_of x a = last_name a).
  { intros a Ha. unfold slot_of, last_name. f_equal. f_equal. rewrite Forall_forall in FN. specialize (FN a Ha). assert (G : forall t, In t a -> okname x t = true). { intros t Ht. rewrite Forall_forall in FN. rewrite Forall_forall in R. apply okname_spec; [exact NDx|apply R, in_concat; eauto|auto]. }
    clear -G. induction a as [|t a IH]; [reflexivity|]. cbn [filter]. rewrite (G t (or_introl eq_refl)), IH; [reflexivity|]. intros u Hu. apply G. right. exact Hu. }
  assert (MP : map (slot_of x) args = map last_name args) by (apply map_ext_in; exact SL). rewrite MP.
  assert (SM : somes (map last_name args) = arg_names args).
  { clear. induction args as [|a args IH]; [reflexivity|]. cbn [map somes flat_map arg_names]. fold (somes (map last_name args)). fold (arg_names args). rewrite IH. f_equal. unfold last_name, name_of. destruct (rev a); reflexivity. }
  assert (NN : In None (map last_name args) <-> In [] args).
  { rewrite in_map_iff. split; [intros (a & Ea & Ha)|intros H; exists []; auto]. unfold last_name in Ea. destruct (rev a) eqn:Er; [|discriminate]. apply (f_equal (@rev id)) in Er. rewrite rev_involutive in Er. cbn in Er. subst a. exact Ha. }
  assert (NA : arg_names args = [] <-> ~ exists a, In a args /\ a <> []).
  { clear. induction args as [|a args IH]; [split; [intros _ (a & [] & _)|reflexivity]|]. cbn [arg_names flat_map]. fold (arg_names args). split.
    - intros H (b & [->|Hb] & Nb); apply app_eq_nil in H; destruct H as [H1 H2]; [|apply (proj1 IH H2); eauto]. unfold name_of in H1. destruct (rev b) eqn:Er; [|discriminate]. apply (f_equal (@rev id)) in Er. rewrite rev_involutive in Er. cbn in Er. contradiction.
    - intros H. destruct a as [|t a]; [|destruct H; exists (t :: a); split; [left; reflexivity|discriminate]]. cbn. apply IH. intros (b & Hb & Nb). apply H. exists b. split; [right; exact Hb|exact Nb]. }
  destruct (length (filter unnamed (map last_name args)) =? 0) eqn:E1; cbn [orb].
  { exists x. split; [reflexivity|]. split; [exact W|]. split; [|auto]. intros (_ & K & _). apply none_unnamed in E1. destruct E1. apply NN. exact K. }
  destruct (length (map last_name args) =? length (filter unnamed (map last_name args))) eqn:E2.
  { exists x. split; [reflexivity|]. split; [exact W|]. split; [|auto]. intros (K & _ & _). apply all_unnamed in E2. rewrite SM in E2. apply NA in E2. contradiction. }
  rewrite remove_names_fold, SM.
  destruct (remove_list E (arg_names args) x W (names_nodup args ND)) as (y & Ey & Wy & Ty & Xy & Py).
  { intros t Ht. apply names_incl in Ht. rewrite Forall_forall in R. destruct (R t Ht) as (a & pv & b & Et & Ne). split; [|exact Ne]. rewrite Et. apply in_or_app. right. right. left. reflexivity. }
  exists y. split; [exact Ey|]. split; [exact Wy|]. split.
  - intros _. split; [exact Ty|]. split; [|exact Py]. intros i. specialize (Xy i). unfold token_text in Xy. injection Xy as A B. auto.
  - intros K. destruct K. split; [|split; [|exact FN]].
    + destruct args as [|a0 args0] eqn:EA; [discriminate E2|]. rewrite <- EA in *. assert (D : Forall (fun a => a = []) args \/ exists a, In a args /\ a <> []). { clear. induction args as [|a args IH]; [left; constructor|]. destruct a as [|t a]; [|right; exists (t :: a); split; [left; reflexivity|discriminate]]. destruct IH as [IH|(b & Hb & Nb)]; [left; constructor; auto|right; exists b; split; [right; exact Hb|exact Nb]]. }
      destruct D as [D|D]; [|exact D]. exfalso. assert (Q : arg_names args = []). { apply NA. intros (a & Ha & Na). rewrite Forall_forall in D. apply Na, D, Ha. } rewrite <- SM in Q. apply all_unnamed in Q. congruence.
    + destruct (in_dec (list_eq_dec Nat.eq_dec) [] args) as [H|H]; [exact H|]. rewrite <- NN in H. apply none_unnamed in H. congruence.
Qed.

(** With at most one identifier behind the type of each argument, names are given for all
    arguments or for none. *)
Theorem C65_all_or_none : forall E x args y, wfl E x -> reads x args -> Forall (Forall (names_arg x)) args -> Forall (fun a => length a <= 1) args ->
  simple_proto (calls args) x = Some y ->
  (forall a t, In a args -> In t a -> ~ In t (x_toks y)) \/ y = x /\ (Forall (fun a => a <> []) args).
Proof.
  intros E x args y W R FN L H. destruct (C65_names E x args W R) as (y' & H' & _ & M & N). rewrite H in H'. injection H' as <-.
  destruct (in_dec (list_eq_dec Nat.eq_dec) [] args) as [I|I].
  - left. intros a t Ha Ht. destruct M as (T & _); [split; [exists a; split; [exact Ha|intros ->; destruct Ht]|auto]|]. rewrite T. intros K. apply filter_In in K. destruct K as [_ K]. apply negb_true_iff in K.
    assert (Q : existsb (Nat.eqb t) (arg_names args) = true); [|congruence]. apply existsb_exists. exists t. split; [|apply Nat.eqb_refl]. apply in_flat_map. exists a. split; [exact Ha|]. rewrite Forall_forall in L. specialize (L a Ha). destruct a as [|u [|v a]]; [destruct Ht| |cbn in L; lia]. destruct Ht as [->|[]]. left. reflexivity.
  - right. split; [apply N; intros (_ & K & _); contradiction|]. apply Forall_forall. intros a Ha ->. contradiction.
Qed.

(** ** Examples *)
(** void f(int a, int, char *b); *)
Definition tok (ty : ttype) (f : N) (s : string) : node := Node ty f 1 1 (s2b s) 1 true [] [] None None None.
Definition protostream (l : list (ttype * N * string)) : lex := stream (map (fun '(ty, f, s) => tok ty f s) l) (seq 0 (length l)).
Definition ex_proto : lex := protostream [(T_VOID, F_TYPE, "void"); (T_IDENT, 0%N, "f"); (T_LPAREN, 0%N, "("); (T_INT, F_TYPE, "int"); (T_IDENT, 0%N, "a"); (T_COMMA, 0%N, ",");
  (T_INT, F_TYPE, "int"); (T_COMMA, 0%N, ","); (T_CHAR, F_TYPE, "char"); (T_STAR, 0%N, "*"); (T_IDENT, 0%N, "b"); (T_RPAREN, 0%N, ")"); (T_SEMI, 0%N, ";"); (T_EOF, 0%N, "")]%string.
Definition shown (x : lex) : list bytes := map (fun t => n_str (x_heap x t)) (x_toks x).
Example ex_proto_run : match simple_proto (calls [[4]; []; [10]]) ex_proto with Some y => shown y = map s2b ["void"; "f"; "("; "int"; ","; "int"; ","; "char"; "*"; ")"; ";"; ""]%string | None => False end.
Proof. vm_compute. reflexivity. Qed.
Definition ends (l : list (ttype * N * string)) : bool := match rev l with [] => false | e :: r => ttype_eqb (fst (fst e)) T_EOF && forallb (fun k => negb (ttype_eqb (fst (fst k)) T_EOF)) r end.
Lemma plain_wfl : forall l, ends l = true -> wfl (fun _ => 0) (protostream l).
Proof.
  intros l B. unfold ends in B. destruct (rev l) as [|e r] eqn:Er; [discriminate|]. apply andb_true_iff in B. destruct B as [Te F]. apply ttype_eqb_eq in Te. assert (F' : Forall (fun k => fst (fst k) <> T_EOF) (rev r)). { apply Forall_forall. intros k Hk. apply in_rev in Hk. rewrite forallb_forall in F. specialize (F k Hk). apply negb_true_iff in F. apply ttype_eqb_neq. exact F. }
  apply (f_equal (@rev _)) in Er. rewrite rev_involutive in Er. cbn [rev] in Er. subst l. clear F. rename F' into F. set (body := rev r) in *. clearbody body. set (l' := body ++ [e]).
  assert (T : x_toks (protostream l') = seq 0 (length l')) by reflexivity.
  assert (H : forall t, t < length l' -> exists k, nth_error l' t = Some k /\ x_heap (protostream l') t = tok (fst (fst k)) (snd (fst k)) (snd k)).
  { intros t Ht. destruct (nth_error l' t) as [k|] eqn:Ek; [|apply nth_error_None in Ek; lia]. exists k. split; [reflexivity|]. unfold protostream, stream, of_list. cbn [x_heap]. erewrite nth_error_nth; [|rewrite nth_error_map, Ek; reflexivity]. destruct k as [[ty f] s]. reflexivity. }
  assert (In' : forall t, In t (x_toks (protostream l')) -> t < length l') by (intros t Ht; rewrite T in Ht; apply in_seq in Ht; lia).
  constructor.
  - assert (WH : forall l, (forall t, In t l -> t < length l') -> whole (x_heap (protostream l')) l = l). { induction l as [|t l IH]; intros G; [reflexivity|]. rewrite whole_cons, IH by (intros u Hu; apply G; right; exact Hu). destruct (H t (G t (or_introl eq_refl))) as (k & _ & ->). reflexivity. }
    rewrite WH by exact In'. rewrite T. apply seq_NoDup.
  - exists (seq 0 (length body)), (length body). split; [rewrite T; unfold l'; rewrite app_length; cbn [length]; rewrite Nat.add_1_r, seq_S; reflexivity|]. split.
    + destruct (H (length body)) as (k & Ek & Hk); [unfold l'; rewrite app_length; cbn; lia|]. unfold tyof. rewrite Hk. unfold l' in Ek. rewrite nth_error_app2, Nat.sub_diag in Ek by lia. injection Ek as <-. exact Te.
    + apply Forall_forall. intros t Ht. apply in_seq in Ht. destruct (H t) as (k & Ek & Hk); [unfold l'; rewrite app_length; lia|]. unfold tyof. rewrite Hk. unfold l' in Ek. rewrite nth_error_app1 in Ek by lia. apply nth_error_In in Ek. rewrite Forall_forall in F. apply (F k Ek).
  - intros t d Ht Hd. destruct (H t (In' t Ht)) as (k & _ & Hk). rewrite Hk in Hd. destruct Hd.
  - intros t Ht. destruct (H t (In' t Ht)) as (k & _ & Hk). rewrite Hk. reflexivity.
Qed.
Example ex_proto_wfl : wfl (fun _ => 0) ex_proto.
Proof. apply plain_wfl. reflexivity. Qed.
Example C65_ex : reads ex_proto [[4]; []; [10]] /\ mixed ex_proto [[4]; []; [10]].
Proof.
  split; [split|split; [|split]].
  - repeat constructor; cbn; intuition discriminate.
  - constructor; [exists [0;1;2], 3, [5;6;7;8;9;10;11;12;13]|constructor; [exists [0;1;2;3;4;5;6;7;8], 9, [11;12;13]|constructor]]; (split; [reflexivity|vm_compute; discriminate]).
  - exists [4]. split; [left; reflexivity|discriminate].
  - right. left. reflexivity.
  - constructor; [|constructor; [constructor|constructor; [|constructor]]]; (constructor; [|constructor]).
    + exists [0;1;2], 3, [5;6;7;8;9;10;11;12;13]. split; [reflexivity|]. right. left. reflexivity.
    + exists [0;1;2;3;4;5;6;7;8], 9, [11;12;13]. split; [reflexivity|]. left. reflexivity.
Qed.

Definition ex_product : lex := protostream [(T_VOID, F_TYPE, "void"); (T_IDENT, 0%N, "f"); (T_LPAREN, 0%N, "("); (T_INT, F_TYPE, "int"); (T_COMMA, 0%N, ",");
  (T_INT, F_TYPE, "int"); (T_IDENT, 0%N, "a"); (T_LSQUARE, 0%N, "["); (T_LITERAL, 0%N, "2"); (T_STAR, 0%N, "*"); (T_IDENT, 0%N, "M"); (T_RSQUARE, 0%N, "]"); (T_RPAREN, 0%N, ")"); (T_SEMI, 0%N, ";"); (T_EOF, 0%N, "")]%string.
(** What is removed need not be the name of an argument: the last identifier behind a star is,
    here the operand of a multiplication.  void f(int, int a[2 * M]); becomes
    void f(int, int a[2 * ]); *)
Theorem C65_operand_refuted : exists E x args y, wfl E x /\ reads x args /\ simple_proto (calls args) x = Some y /\
  shown x = map s2b ["void"; "f"; "("; "int"; ","; "int"; "a"; "["; "2"; "*"; "M"; "]"; ")"; ";"; ""]%string /\
  shown y = map s2b ["void"; "f"; "("; "int"; ","; "int"; "a"; "["; "2"; "*"; "]"; ")"; ";"; ""]%string.
Proof.
  exists (fun _ => 0), ex_product, [[]; [6; 10]]. eexists. split; [|split; [split|split; [vm_compute; reflexivity|split; vm_compute; reflexivity]]].
  - apply plain_wfl. reflexivity.
  - repeat constructor; cbn; intuition discriminate.
  - constructor; [exists [0;1;2;3;4], 5, [7;8;9;10;11;12;13;14]|constructor; [exists [0;1;2;3;4;5;6;7;8], 9, [11;12;13;14]|constructor]]; (split; [reflexivity|vm_compute; discriminate]).
Qed.

Definition ex_pointer : lex := protostream [(T_VOID, F_TYPE, "void"); (T_IDENT, 0%N, "f"); (T_LPAREN, 0%N, "("); (T_INT, F_TYPE, "int"); (T_LPAREN, 0%N, "("); (T_STAR, 0%N, "*"); (T_IDENT, 0%N, "cb"); (T_RPAREN, 0%N, ")");
  (T_LPAREN, 0%N, "("); (T_VOID, F_TYPE, "void"); (T_RPAREN, 0%N, ")"); (T_COMMA, 0%N, ","); (T_INT, F_TYPE, "int"); (T_IDENT, 0%N, "a"); (T_RPAREN, 0%N, ")"); (T_SEMI, 0%N, ";"); (T_EOF, 0%N, "")]%string.
(** Names are removed although all arguments are named: that of a function pointer is part of its
    type and is not taken for a name.  void f(int (STAR cb)(void), int a); becomes
    void f(int (STAR cb)(void), int); *)
Theorem C65_pointer_refuted : exists E x args y, wfl E x /\ reads x args /\ simple_proto (calls args) x = Some y /\
  shown x = map s2b ["void"; "f"; "("; "int"; "("; "*"; "cb"; ")"; "("; "void"; ")"; ","; "int"; "a"; ")"; ";"; ""]%string /\
  shown y = map s2b ["void"; "f"; "("; "int"; "("; "*"; "cb"; ")"; "("; "void"; ")"; ","; "int"; ")"; ";"; ""]%string.
Proof.
  exists (fun _ => 0), ex_pointer, [[]; []; [13]]. eexists. split; [|split; [split|split; [vm_compute; reflexivity|split; vm_compute; reflexivity]]].
  - apply plain_wfl. reflexivity.
  - repeat constructor; cbn; intuition discriminate.
  - constructor; [exists [0;1;2;3;4;5;6;7;8;9;10;11], 12, [14;15;16]|constructor]; (split; [reflexivity|vm_compute; discriminate]).
Qed.

Print Assumptions C65_names.
Print Assumptions C65_all_or_none.
Print Assumptions C65_operand_refuted.
Print Assumptions C65_pointer_refuted.
