(** Model of knfmt -d, which shows the difference using diff(1): libks/tmp.c:27-76 KS_tmpfd
    and knfmt.c:247-297 filediff, as a transition system.  Every state it visits is a point
    where the process may be interrupted, every outcome of a system call is a possible step.

    The file system is that of FileModel.v.  Descriptors are the table of the process; what a
    descriptor refers to is an open file with an offset, which a forked process shares.
    Simplified: no other process touches the temporary files; diff(1) moves the offsets of
    what it has open and exits, but neither writes to it nor to anything else; the arena
    scope in the child (knfmt.c:280) never runs its cleanups and is left out; running out of
    memory is left out. *)
From Verif Require Export Base FileModel.

(** ** The kernel *)
(** An open file: its inode and offset. *)
Record desc := Desc { o_node : nat; o_off : nat }.
Record entry := Entry { e_fd : nat; e_desc : nat; e_cloexec : bool }.
Record os := Os { o_fs : fs; o_descs : nat -> desc; o_next : nat; o_tab : list entry; o_umask : nat }.
Definition set_desc (d : nat) (x : desc) (o : os) : os := Os (o_fs o) (fun e => if e =? d then x else o_descs o e) (o_next o) (o_tab o) (o_umask o).
Definition set_fs (f : fs) (o : os) : os := Os f (o_descs o) (o_next o) (o_tab o) (o_umask o).
Definition set_tab (t : list entry) (o : os) : os := Os (o_fs o) (o_descs o) (o_next o) t (o_umask o).
Definition set_umask (u : nat) (o : os) : os := Os (o_fs o) (o_descs o) (o_next o) (o_tab o) u.
Definition tab_get (fd : nat) (t : list entry) : option entry := find (fun e => e_fd e =? fd) t.
(** close(2); closing what is not open is an error to be excluded. *)
Definition tab_close (fd : nat) (t : list entry) : option (list entry) :=
  match tab_get fd t with Some _ => Some (filter (fun e => negb (e_fd e =? fd)) t) | None => None end.
(** write(2) at the offset. *)
Definition write_at (off : nat) (s : bytes) (n : inode) : inode :=
  Inode (firstn off (i_data n) ++ s ++ skipn (off + length s) (i_data n)) (i_mode n) (i_setid n) (i_uid n) (i_gid n).
(** mkstemp(3): a new empty file [tmp], open as [fd], which stays open across execve(2). *)
Definition os_mkstemp (tmp : path) (fd m u g : nat) (o : os) : os :=
  let f := o_fs o in
  Os (Fs (f_names (set_name tmp (Some (f_next f)) f)) (f_nodes (set_node (f_next f) (Inode [] m false u g) f)) (S (f_next f)))
     (fun d => if d =? o_next o then Desc (f_next f) 0 else o_descs o d) (S (o_next o)) (Entry fd (o_next o) false :: o_tab o) (o_umask o).

(** printf's %d of what is not negative. *)
Fixpoint dec_fuel (fuel n : nat) (acc : bytes) : bytes :=
  match fuel with
  | 0 => acc
  | S fuel' => let acc' := ascii_of_nat (48 + n mod 10) :: acc in if n / 10 =? 0 then acc' else dec_fuel fuel' (n / 10) acc'
  end.
Definition dec (n : nat) : bytes := dec_fuel (S n) n [].
Definition PATH_MAX : nat := 4096.

(** ** The program *)
(** The arguments: fe_path and the two buffers. *)
Record call := Call { cl_path : bytes; cl_src : bytes; cl_dst : bytes }.
Inductive side := Src | Dst.
Definition side_data (c : call) (w : side) : bytes := match w with Src => cl_src c | Dst => cl_dst c end.
(** filediff's variables; None is -1. *)
Record locals := Locals { l_srcfd : option nat; l_dstfd : option nat; l_srcpath : bytes; l_dstpath : bytes }.

Inductive tpc :=
| TCmp                                   (* knfmt.c:257 *)
| TName (w : side)                       (* tmp.c:36 *)
| TUmask (w : side)                      (* tmp.c:41 *)
| TMkstemp (w : side) (old : nat)        (* tmp.c:42 *)
| TRestore (w : side) (old : nat) (r : option (nat * path))  (* tmp.c:43 *)
| TUnlink (w : side) (fd : nat) (tmp : path)  (* tmp.c:46 *)
| TWrite (w : side) (fd : nat) (rest : bytes) (* tmp.c:49 *)
| TSeek (w : side) (fd : nat)            (* tmp.c:58 *)
| TPath (w : side) (fd : nat)            (* tmp.c:61 *)
| TErr (fd : nat)                        (* tmp.c:73 *)
| TFork                                  (* knfmt.c:269 *)
| TWait                                  (* knfmt.c:286 *)
| TOut1 | TOut2                          (* knfmt.c:292, 294 *)
| TRet (differs : bool)
| TBad.
(** The child: before execl, running diff with these arguments, gone. *)
Inductive child := CNone | CForked (tab : list entry) | CDiff (tab : list entry) (file : bytes) (args : list bytes) | CExit.

Record tstate := T { t_pc : tpc; t_os : os; t_loc : locals; t_child : child;
  t_warn : list bytes;     (* warnings printed *)
  t_kept : list path       (* temporary files for which unlink failed *) }.
Definition goto (k : tpc) (s : tstate) : tstate := T k (t_os s) (t_loc s) (t_child s) (t_warn s) (t_kept s).
Definition with_os (o : os) (s : tstate) : tstate := T (t_pc s) o (t_loc s) (t_child s) (t_warn s) (t_kept s).
Definition with_child (c : child) (s : tstate) : tstate := T (t_pc s) (t_os s) (t_loc s) c (t_warn s) (t_kept s).
Definition warns (w : bytes) (s : tstate) : tstate := T (t_pc s) (t_os s) (t_loc s) (t_child s) (w :: t_warn s) (t_kept s).
Definition keeps (p : path) (s : tstate) : tstate := T (t_pc s) (t_os s) (t_loc s) (t_child s) (t_warn s) (p :: t_kept s).
Definition tinit (o : os) : tstate := T TCmp o (Locals None None [] []) CNone [] [].

(** tmp.c:61, 68: the path stored and the descriptor returned, into filediff's variables
    (knfmt.c:260-267). *)
Definition returned (w : side) (fd : nat) (s : tstate) : tstate :=
  let l := t_loc s in
  let p := s2b "/dev/fd/" ++ dec fd in
  match w with
  | Src => T (TName Dst) (t_os s) (Locals (Some fd) (l_dstfd l) p (l_dstpath l)) (t_child s) (t_warn s) (t_kept s)
  | Dst => T TFork (t_os s) (Locals (l_srcfd l) (Some fd) (l_srcpath l) p) (t_child s) (t_warn s) (t_kept s)
  end.
(** tmp.c:73, knfmt.c:292-295: close(fd) and on. *)
Definition closes (fd : nat) (k : tpc) (s : tstate) : tstate :=
  match tab_close fd (o_tab (t_os s)) with Some t => goto k (with_os (set_tab t (t_os s)) s) | None => goto TBad s end.
Definition closes_opt (fd : option nat) (k : tpc) (s : tstate) : tstate := match fd with Some fd => closes fd k s | None => goto k s end.
(** The effect of write(2) on the open file. *)
Definition os_write (d : nat) (a : bytes) (o : os) : os :=
  let x := o_descs o d in
  set_desc d (Desc (o_node x) (o_off x + length a)) (set_fs (set_node (o_node x) (write_at (o_off x) a (f_nodes (o_fs o) (o_node x))) (o_fs o)) o).

(** knfmt.c:275-284: the arguments of diff. *)
Definition diff_file : bytes := s2b "/usr/bin/diff".
Definition diff_args (c : call) (l : locals) : list bytes :=
  [diff_file; s2b "-u"; s2b "-L"; cl_path c ++ s2b ".orig"; s2b "-L"; cl_path c; l_srcpath l; l_dstpath l].

Inductive tstep (c : call) (s : tstate) : tstate -> Prop :=
(* knfmt.c:257-258 *)
| K_same : t_pc s = TCmp -> cl_src c = cl_dst c -> tstep c s (goto (TRet false) s)
| K_differs : t_pc s = TCmp -> cl_src c <> cl_dst c -> tstep c s (goto (TName Src) s)
(* tmp.c:36-40: snprintf of a constant that fits; it may fail nevertheless *)
| K_name : forall w, t_pc s = TName w -> tstep c s (goto (TUmask w) s)
| K_name_fail : forall w, t_pc s = TName w -> tstep c s (goto TOut1 s)
(* tmp.c:41-45 *)
| K_umask : forall w, t_pc s = TUmask w -> tstep c s (goto (TMkstemp w (o_umask (t_os s))) (with_os (set_umask 18 (t_os s)) s))
| K_mkstemp : forall w old sfx fd m u g, t_pc s = TMkstemp w old -> length sfx = 8 -> ~ In "/"%char sfx ->
    f_names (o_fs (t_os s)) (s2b "/tmp/libks." ++ sfx) = None -> ~ In fd (map e_fd (o_tab (t_os s))) ->
    tstep c s (goto (TRestore w old (Some (fd, s2b "/tmp/libks." ++ sfx))) (with_os (os_mkstemp (s2b "/tmp/libks." ++ sfx) fd m u g (t_os s)) s))
| K_mkstemp_fail : forall w old, t_pc s = TMkstemp w old -> tstep c s (goto (TRestore w old None) s)
| K_restore : forall w old r, t_pc s = TRestore w old r ->
    tstep c s (goto (match r with Some (fd, tmp) => TUnlink w fd tmp | None => TOut1 end) (with_os (set_umask old (t_os s)) s))
(* tmp.c:46-47 *)
| K_unlink : forall w fd tmp, t_pc s = TUnlink w fd tmp ->
    tstep c s (goto (TWrite w fd (side_data c w)) (with_os (set_fs (set_name tmp None (o_fs (t_os s))) (t_os s)) s))
| K_unlink_fail : forall w fd tmp, t_pc s = TUnlink w fd tmp -> tstep c s (goto (TErr fd) (keeps tmp s))
(* tmp.c:49-57: write may write less than asked for *)
| K_write : forall w fd a b e, t_pc s = TWrite w fd (a ++ b) -> a ++ b <> [] -> tab_get fd (o_tab (t_os s)) = Some e ->
    tstep c s (goto (TWrite w fd b) (with_os (os_write (e_desc e) a (t_os s)) s))
| K_write_fail : forall w fd rest, t_pc s = TWrite w fd rest -> rest <> [] -> tstep c s (goto (TErr fd) s)
| K_write_end : forall w fd, t_pc s = TWrite w fd [] -> tstep c s (goto (TSeek w fd) s)
(* tmp.c:58-59 *)
| K_seek : forall w fd e, t_pc s = TSeek w fd -> tab_get fd (o_tab (t_os s)) = Some e ->
    tstep c s (goto (TPath w fd) (with_os (set_desc (e_desc e) (Desc (o_node (o_descs (t_os s) (e_desc e))) 0) (t_os s)) s))
| K_seek_fail : forall w fd, t_pc s = TSeek w fd -> tstep c s (goto (TErr fd) s)
(* tmp.c:60-68 *)
| K_path : forall w fd, t_pc s = TPath w fd -> length (s2b "/dev/fd/" ++ dec fd) < PATH_MAX -> tstep c s (returned w fd s)
| K_path_fail : forall w fd, t_pc s = TPath w fd -> tstep c s (goto (TErr fd) s)
(* tmp.c:72-74 *)
| K_err : forall fd, t_pc s = TErr fd -> tstep c s (closes fd TOut1 s)
(* knfmt.c:269-285 *)
| K_fork_fail : t_pc s = TFork -> tstep c s (goto TOut1 (warns (s2b "fork") s))
| K_fork : t_pc s = TFork -> tstep c s (goto TWait (with_child (CForked (o_tab (t_os s))) s))
| K_exec : forall tab, t_child s = CForked tab ->
    tstep c s (with_child (CDiff (filter (fun e => negb (e_cloexec e)) tab) diff_file (diff_args c (t_loc s))) s)
| K_exec_fail : forall tab, t_child s = CForked tab -> tstep c s (with_child CExit s)
| K_diff_read : forall tab f args e off, t_child s = CDiff tab f args -> In e tab ->
    tstep c s (with_os (set_desc (e_desc e) (Desc (o_node (o_descs (t_os s) (e_desc e))) off) (t_os s)) s)
| K_diff_exit : forall tab f args, t_child s = CDiff tab f args -> tstep c s (with_child CExit s)
(* knfmt.c:286-289 *)
| K_wait : t_pc s = TWait -> t_child s = CExit -> tstep c s (goto TOut1 s)
| K_wait_fail : t_pc s = TWait -> tstep c s (goto TOut1 (warns (s2b "waitpid") s))
(* knfmt.c:291-296 *)
| K_out1 : t_pc s = TOut1 -> tstep c s (closes_opt (l_srcfd (t_loc s)) TOut2 s)
| K_out2 : t_pc s = TOut2 -> tstep c s (closes_opt (l_dstfd (t_loc s)) (TRet true) s).

Inductive treach (c : call) (s0 : tstate) : tstate -> Prop :=
| TR_refl : treach c s0 s0
| TR_step : forall s s', treach c s0 s -> tstep c s s' -> treach c s0 s'.
