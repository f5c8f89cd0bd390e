(** Reading, formatting and writing the files given on the command line (knfmt.c, file.c,
    fs.c) as a transition system: every state it visits is a point where the process may be
    interrupted, every outcome of a system call is a possible step.

    Simplifications: a file name denotes one directory entry (no symbolic links, no two
    spellings of a name); no other process changes the files meanwhile; lexer_tokenize and
    parser_exec (knfmt.c:207-238) are the function [c_format] of the name and the content, no
    value standing for an error; running diff(1) and its temporary files (knfmt.c:260-296, see TmpModel.v)
    are left out; so are running out of memory and the options parsed before the loop. *)
From Verif Require Export Base.

Definition path := bytes.
Definition path_eqb (a b : path) : bool := if list_eq_dec ascii_dec a b then true else false.

(** ** The file system *)
Record inode := Inode { i_data : bytes; i_mode : nat; i_setid : bool; i_uid : nat; i_gid : nat }.
Record fs := Fs { f_names : path -> option nat; f_nodes : nat -> inode; f_next : nat }.
Definition set_name (p : path) (o : option nat) (f : fs) : fs :=
  Fs (fun q => if path_eqb q p then o else f_names f q) (f_nodes f) (f_next f).
Definition set_node (i : nat) (n : inode) (f : fs) : fs :=
  Fs (f_names f) (fun j => if j =? i then n else f_nodes f j) (f_next f).
Definition content (f : fs) (p : path) : option bytes := match f_names f p with Some i => Some (i_data (f_nodes f i)) | None => None end.
Definition append (s : bytes) (n : inode) : inode := Inode (i_data n ++ s) (i_mode n) (i_setid n) (i_uid n) (i_gid n).
Definition chmod (m : nat) (b : bool) (n : inode) : inode := Inode (i_data n) m b (i_uid n) (i_gid n).
(** chown(2) may clear the set-user-ID and set-group-ID bits. *)
Definition chown (keep : bool) (u g : nat) (n : inode) : inode := Inode (i_data n) (i_mode n) (i_setid n && keep) u g.

(** fs.c:71-87 tmptemplate: the bytes in front of XXXXXXXX. *)
Fixpoint after_slash (s : bytes) : bytes * bytes :=
  match s with
  | [] => ([], [])
  | c :: r => let '(d, b) := after_slash r in
              match d with
              | [] => if c =c "/"%char then ([c], b) else ([], c :: b)
              | _ => (c :: d, b)
              end
  end.
Definition tmptemplate (p : path) : bytes := let '(d, b) := after_slash p in d ++ "."%char :: b ++ s2b ".".

(** ** The program *)
Inductive mode := MDiff | MInplace | MPrint.
Record cfg := Cfg { c_mode : mode; c_format : path -> bytes -> option bytes }.

(** What happened while handling one file. *)
Inductive event := EOpen | ERead | EFormat | EDiffers | EMkstemp | EWrite | EStat | EChmod | EChown | ERename | EUnlink.

Inductive pc :=
| Open
| Read (i : nat) (src : bytes)
| Format (i : nat) (src : bytes)
| Mkstemp (i : nat) (dst : bytes)
| Write (i : nat) (tmp : path) (j : nat) (rest : bytes)
| Stat1 (i : nat) (tmp : path) (j : nat)
| Stat2 (i : nat) (tmp : path) (j : nat) (sb : inode)
| Chmod (tmp : path) (j : nat) (sb db : inode)
| Chown (tmp : path) (j : nat) (sb db : inode)
| Rename (tmp : path)
| Unlink (tmp : path)
| Print (rest : bytes)
| Ret (failed : bool).

Record state := State {
  s_fs : fs;
  s_out : bytes;                               (* standard output *)
  s_todo : list path;                          (* files not yet handled *)
  s_cur : option (path * pc * list event);     (* the file at hand *)
  s_done : list (path * list event * bool);    (* files handled, latest first *)
  s_error : bool                               (* main's error *)
}.
Definition at_pc (s : state) (p : path) (c : pc) (ev : list event) : state := State (s_fs s) (s_out s) (s_todo s) (Some (p, c, ev)) (s_done s) (s_error s).
Definition with_fs (f : fs) (s : state) : state := State f (s_out s) (s_todo s) (s_cur s) (s_done s) (s_error s).
Definition init (f : fs) (files : list path) : state := State f [] files None [] false.

(** knfmt.c:240-244: where fileformat goes with the formatted text; filediff 257-258 and
    filewrite 310-311 return at once if nothing changed. *)
Definition dispatch (m : mode) (i : nat) (src dst : bytes) : pc * list event :=
  match m with
  | MDiff => if path_eqb src dst then (Ret false, []) else (Ret true, [EDiffers])
  | MInplace => if path_eqb src dst then (Ret false, []) else (Mkstemp i dst, [])
  | MPrint => (Print dst, [])
  end.

(** One system call of the file at hand, or what is computed between two.
    [pstep c s p k ev s' k' ev']: from position [k] to [k']. *)
Inductive pstep (c : cfg) (s : state) (p : path) : pc -> list event -> state -> pc -> list event -> Prop :=
(* file.c:44-62 file_read, libks/buffer.c:113-130 *)
| P_open : forall i ev, f_names (s_fs s) p = Some i -> pstep c s p Open ev s (Read i []) ev
| P_open_fail : forall ev, pstep c s p Open ev s (Ret true) (EOpen :: ev)
| P_read : forall i src n ev, n <> [] -> starts_with (src ++ n) (i_data (f_nodes (s_fs s) i)) = true -> pstep c s p (Read i src) ev s (Read i (src ++ n)) ev
| P_read_eof : forall i src ev, src = i_data (f_nodes (s_fs s) i) -> pstep c s p (Read i src) ev s (Format i src) ev
| P_read_fail : forall i src ev, pstep c s p (Read i src) ev s (Ret true) (ERead :: ev)
(* knfmt.c:195-239 fileformat *)
| P_format_fail : forall i src ev, c_format c p src = None -> pstep c s p (Format i src) ev s (Ret true) (EFormat :: ev)
| P_format : forall i src dst ev, c_format c p src = Some dst ->
    pstep c s p (Format i src) ev s (fst (dispatch (c_mode c) i src dst)) (snd (dispatch (c_mode c) i src dst) ++ ev)
(* knfmt.c:299-359 filewrite *)
| P_mkstemp : forall i dst sfx m u g ev, length sfx = 8 -> ~ In "/"%char sfx -> f_names (s_fs s) (tmptemplate p ++ sfx) = None ->
    pstep c s p (Mkstemp i dst) ev
      (with_fs (let f := s_fs s in Fs (f_names (set_name (tmptemplate p ++ sfx) (Some (f_next f)) f)) (f_nodes (set_node (f_next f) (Inode [] m false u g) f)) (S (f_next f))) s)
      (Write i (tmptemplate p ++ sfx) (f_next (s_fs s)) dst) ev
| P_mkstemp_fail : forall i dst ev, pstep c s p (Mkstemp i dst) ev s (Ret true) (EMkstemp :: ev)
| P_write : forall i tmp j a b ev, a ++ b <> [] ->
    pstep c s p (Write i tmp j (a ++ b)) ev (with_fs (set_node j (append a (f_nodes (s_fs s) j)) (s_fs s)) s) (Write i tmp j b) ev
| P_write_fail : forall i tmp j rest ev, rest <> [] -> pstep c s p (Write i tmp j rest) ev s (Unlink tmp) (EWrite :: ev)
| P_write_end : forall i tmp j ev, pstep c s p (Write i tmp j []) ev s (Stat1 i tmp j) ev
(* knfmt.c:381-407 fileattr *)
| P_stat1 : forall i tmp j ev, pstep c s p (Stat1 i tmp j) ev s (Stat2 i tmp j (f_nodes (s_fs s) j)) ev
| P_stat1_fail : forall i tmp j ev, pstep c s p (Stat1 i tmp j) ev s (Unlink tmp) (EStat :: ev)
| P_stat2 : forall i tmp j sb ev, pstep c s p (Stat2 i tmp j sb) ev s (Chmod tmp j sb (f_nodes (s_fs s) i)) ev
| P_stat2_fail : forall i tmp j sb ev, pstep c s p (Stat2 i tmp j sb) ev s (Unlink tmp) (EStat :: ev)
| P_chmod_same : forall tmp j sb db ev, i_mode sb = i_mode db -> i_setid sb = i_setid db -> pstep c s p (Chmod tmp j sb db) ev s (Chown tmp j sb db) ev
| P_chmod : forall tmp j sb db ev, i_mode sb <> i_mode db \/ i_setid sb <> i_setid db ->
    pstep c s p (Chmod tmp j sb db) ev (with_fs (set_node j (chmod (i_mode db) (i_setid db) (f_nodes (s_fs s) j)) (s_fs s)) s) (Chown tmp j sb db) ev
| P_chmod_fail : forall tmp j sb db ev, i_mode sb <> i_mode db \/ i_setid sb <> i_setid db -> pstep c s p (Chmod tmp j sb db) ev s (Unlink tmp) (EChmod :: ev)
| P_chown_same : forall tmp j sb db ev, i_uid sb = i_uid db -> i_gid sb = i_gid db -> pstep c s p (Chown tmp j sb db) ev s (Rename tmp) ev
| P_chown : forall tmp j sb db keep ev, i_uid sb <> i_uid db \/ i_gid sb <> i_gid db ->
    pstep c s p (Chown tmp j sb db) ev (with_fs (set_node j (chown keep (i_uid db) (i_gid db) (f_nodes (s_fs s) j)) (s_fs s)) s) (Rename tmp) ev
| P_chown_fail : forall tmp j sb db ev, i_uid sb <> i_uid db \/ i_gid sb <> i_gid db -> pstep c s p (Chown tmp j sb db) ev s (Unlink tmp) (EChown :: ev)
(* knfmt.c:341-358 *)
| P_rename : forall tmp j ev, f_names (s_fs s) tmp = Some j ->
    pstep c s p (Rename tmp) ev (with_fs (set_name tmp None (set_name p (Some j) (s_fs s))) s) (Ret false) ev
| P_rename_fail : forall tmp ev, pstep c s p (Rename tmp) ev s (Unlink tmp) (ERename :: ev)
| P_unlink : forall tmp ev, pstep c s p (Unlink tmp) ev (with_fs (set_name tmp None (s_fs s)) s) (Ret true) ev
| P_unlink_fail : forall tmp ev, pstep c s p (Unlink tmp) ev s (Ret true) (EUnlink :: ev)
(* knfmt.c:361-379 fileprint *)
| P_print : forall a b ev, a ++ b <> [] ->
    pstep c s p (Print (a ++ b)) ev (State (s_fs s) (s_out s ++ a) (s_todo s) (s_cur s) (s_done s) (s_error s)) (Print b) ev
| P_print_fail : forall rest ev, rest <> [] -> pstep c s p (Print rest) ev s (Ret true) (EWrite :: ev)
| P_print_end : forall ev, pstep c s p (Print []) ev s (Ret false) ev.

(** knfmt.c:140-148: the loop in main. *)
Inductive step (c : cfg) : state -> state -> Prop :=
| S_next : forall s p todo, s_cur s = None -> s_todo s = p :: todo ->
    step c s (State (s_fs s) (s_out s) todo (Some (p, Open, [])) (s_done s) (s_error s))
| S_file : forall s p k ev s' k' ev', s_cur s = Some (p, k, ev) -> pstep c s p k ev s' k' ev' -> step c s (at_pc s' p k' ev')
| S_ret : forall s p r ev, s_cur s = Some (p, Ret r, ev) ->
    step c s (State (s_fs s) (s_out s) (s_todo s) None ((p, ev, r) :: s_done s) (s_error s || r)).

Inductive reach (c : cfg) (s0 : state) : state -> Prop :=
| R_refl : reach c s0 s0
| R_step : forall s s', reach c s0 s -> step c s s' -> reach c s0 s'.

(** main returns error once no file is left. *)
Definition finished (s : state) : Prop := s_cur s = None /\ s_todo s = [].
Definition exit_status (s : state) : nat := if s_error s then 1 else 0.
