(** Model of fs.c:21-63 searchpath: looking for a file in the current directory and those above
    it, as diff_init (diff.c:70) does for .git and style_parse (style.c:380) for .clang-format.

    The kernel is a parameter: what open(2), openat(2) and fstat(2) answer, for directories
    named by natural numbers, when asked for the [n]th time; it may answer differently each
    time, as another process may move directories or descriptors may run out.  Descriptors
    are numbered in the order in which they are handed out, and the list of those open is part
    of the state.  Simplified: nlevels is unbounded. *)
From Verif Require Export Base.

(** Device and inode number of a directory. *)
Definition ident := (N * N)%type.
Record kernel := Kernel {
  k_cwd : option nat;                     (** open(".", O_DIRECTORY) *)
  k_stat : nat -> nat -> option ident;    (** fstat of a directory *)
  k_file : nat -> nat -> bool;            (** openat(dirfd, filename) is not -1 *)
  k_up : nat -> nat -> option nat         (** openat(dirfd, "..", O_DIRECTORY) *)
}.

(** What a descriptor refers to: a directory, or the file in a directory. *)
Inductive object := ODir (d : nat) | OFile (d : nat).
Record fds := Fds { d_next : nat; d_open : list (nat * object) }.
Definition fd_new (o : object) (f : fds) : nat * fds := (d_next f, Fds (S (d_next f)) ((d_next f, o) :: d_open f)).
(** close(2); closing what is not open is an error to be excluded. *)
Definition fd_close (n : nat) (f : fds) : option fds :=
  if existsb (fun p => fst p =? n) (d_open f) then Some (Fds (d_next f) (filter (fun p => negb (fst p =? n)) (d_open f))) else None.
Definition fd_dir (n : nat) (f : fds) : option nat :=
  match find (fun p => fst p =? n) (d_open f) with Some (_, ODir d) => Some d | _ => None end.

(** The outcome: the descriptor returned (None for -1), what is stored in *nlevels (None if
    it is left alone), and the descriptors; [Bad] if a descriptor is used that is not open. *)
Inductive outcome := Bad | Fuel | Ret (fd : option nat) (levels : option nat) (f : fds).

Definition ident_eqb (a b : ident) : bool := ((fst a =? fst b) && (snd a =? snd b))%N.

(** fs.c:55-62. *)
Definition finish (dirfd fd : option nat) (want : bool) (i : nat) (f : fds) : outcome :=
  match (match dirfd with Some n => fd_close n f | None => Some f end) with
  | None => Bad
  | Some f' => Ret fd (match fd with Some _ => if want then Some i else None | None => None end) f'
  end.

(** fs.c:37-54. [n] counts the rounds, for the kernel. *)
Fixpoint search_loop (k : kernel) (want : bool) (fuel n : nat) (id : ident) (dirfd i : nat) (f : fds) : outcome :=
  match fuel with
  | 0 => Fuel
  | S fuel' =>
    match fd_dir dirfd f with
    | None => Bad
    | Some d =>
      if k_file k n d then let '(fd, f1) := fd_new (OFile d) f in finish (Some dirfd) (Some fd) want i f1
      else
        let '(up, f1) := match k_up k n d with
                         | Some d' => let '(u, f') := fd_new (ODir d') f in (Some u, f')
                         | None => (None, f) end in
        match fd_close dirfd f1 with
        | None => Bad
        | Some f2 =>
          match up with
          | None => finish None None want i f2
          | Some u =>
            match fd_dir u f2 with
            | None => Bad
            | Some d' =>
              match k_stat k (S n) d' with
              | None => finish (Some u) None want i f2
              | Some id' => if ident_eqb id id' then finish (Some u) None want i f2
                            else search_loop k want fuel' (S n) id' u (S i) f2
              end
            end
          end
        end
    end
  end.

(** fs.c:21-63; [want]: nlevels is not NULL. *)
Definition searchpath (k : kernel) (want : bool) (fuel : nat) (f : fds) : outcome :=
  match k_cwd k with
  | None => Ret None None f
  | Some d =>
    let '(dirfd, f1) := fd_new (ODir d) f in
    match k_stat k 0 d with
    | None => finish (Some dirfd) None want 0 f1
    | Some id => search_loop k want fuel 0 id dirfd 0 f1
    end
  end.
