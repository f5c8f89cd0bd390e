(** Model of libks/map.c: hash maps with elements in insertion order (a variant of uthash).
    Keys are byte strings of any length, which covers fixed-size keys, MAP_KEY_PTR and
    MAP_KEY_STR (libks/map.c:282-293); the sizes computed for the element allocation
    (libks/map.c:101-114, 246-262, 295-305) are not modelled.  The hash function is any
    function; HASH_JEN (libks/map.c:608-711) is not modelled. *)
From Coq Require Import NArith.
From Verif Require Import Base.
Open Scope N_scope.

(** unsigned int has 32 bits. *)
Definition w32 (n : N) : N := n mod 2 ^ 32.
Definition id := nat.
Definition bind {A B : Type} (x : option A) (f : A -> option B) : option B := match x with Some a => f a | None => None end.

(** struct map_element with key and value behind it, libks/map.c:34-42. *)
Record elem := mkelem { e_prev : option id; e_next : option id; e_hprev : option id; e_hnext : option id; e_key : bytes; e_hash : N; e_val : bytes }.
(** struct UT_hash_bucket, libks/map.c:335-352. *)
Record bucket := mkbucket { k_head : option id; k_count : N; k_mult : N }.
(** struct UT_hash_table, libks/map.c:354-376. *)
Record table := mktable { t_bkts : list bucket; t_num : N; t_log2 : N; t_items : N; t_tail : option id; t_ideal : N; t_nonideal : N; t_ineff : N; t_noexp : bool }.
(** struct map, libks/map.c:44-62, with the memory of elements: [None] is not allocated.
    [p_tbl = None] is a table that has been freed or was never made. *)
Definition heap := id -> option elem.
Record map := mkmap { p_heap : heap; p_fresh : id; p_head : option id; p_tbl : option table }.

(** Storing to a field of an element; not allocated is undefined. *)
Definition modify (i : id) (f : elem -> elem) (h : heap) : option heap :=
  match h i with Some e => Some (fun j => if Nat.eqb j i then Some (f e) else h j) | None => None end.
Definition modify_opt (o : option id) (f : elem -> elem) (h : heap) : option heap := match o with Some i => modify i f h | None => Some h end.
Definition set_prev x e := mkelem x (e_next e) (e_hprev e) (e_hnext e) (e_key e) (e_hash e) (e_val e).
Definition set_next x e := mkelem (e_prev e) x (e_hprev e) (e_hnext e) (e_key e) (e_hash e) (e_val e).
Definition set_hprev x e := mkelem (e_prev e) (e_next e) x (e_hnext e) (e_key e) (e_hash e) (e_val e).
Definition set_hnext x e := mkelem (e_prev e) (e_next e) (e_hprev e) x (e_key e) (e_hash e) (e_val e).
Definition release (i : id) (h : heap) : option heap := match h i with Some _ => Some (fun j => if Nat.eqb j i then None else h j) | None => None end.

(** HASH_TO_BKT, libks/map.c:608-612. *)
Definition to_bkt (hashv num : N) : nat := N.to_nat (N.land hashv (num - 1)).
Fixpoint set_nth (n : nat) (b : bucket) (l : list bucket) : list bucket :=
  match l, n with [], _ => [] | _ :: r, O => b :: r | x :: r, S n => x :: set_nth n b r end.

(** HASH_MAKE_TABLE, libks/map.c:588-606. *)
Definition make_table (tail : id) : table := mktable (repeat (mkbucket None 0 0) 32) 32 5 0 (Some tail) 0 0 0 false.

(** The inner loop of HASH_EXPAND_BUCKETS, libks/map.c:536-554. *)
Fixpoint move_chain (fuel : nat) (nb ideal : N) (cur : option id) (st : heap * list bucket * N) : option (heap * list bucket * N) :=
  match cur with
  | None => Some st
  | Some i =>
      match fuel with
      | O => None
      | S f =>
          let '(h, bs, nonideal) := st in
          bind (h i) (fun e =>
          let idx := to_bkt (e_hash e) nb in
          bind (nth_error bs idx) (fun b =>
          let count := w32 (k_count b + 1) in
          let over := ideal <? count in
          let nonideal := if over then w32 (nonideal + 1) else nonideal in
          let mult := if over && (w32 (k_mult b * ideal) <? count) then w32 (k_mult b + 1) else k_mult b in
          bind (modify i (fun e => set_hnext (k_head b) (set_hprev None e)) h) (fun h =>
          bind (modify_opt (k_head b) (set_hprev (Some i)) h) (fun h =>
          move_chain f nb ideal (e_hnext e) (h, set_nth idx (mkbucket (Some i) count mult) bs, nonideal)))))
      end
  end.
(** The outer loop, libks/map.c:535. *)
Fixpoint move_all (fuel : nat) (nb ideal : N) (old : list bucket) (st : heap * list bucket * N) : option (heap * list bucket * N) :=
  match old with
  | [] => Some st
  | b :: r => bind (move_chain fuel nb ideal (k_head b) st) (move_all fuel nb ideal r)
  end.
(** HASH_EXPAND_BUCKETS, libks/map.c:516-565.  [ok]: calloc delivers; true is return value 1. *)
Definition expand (ok : bool) (fuel : nat) (h : heap) (t : table) : option (bool * heap * table) :=
  if 2 ^ 32 <=? t_num t * 2 then Some (true, h, t) else
  let nb := t_num t * 2 in
  if negb ok then Some (true, h, t) else
  let ideal := w32 (N.shiftr (t_items t) (t_log2 t + 1) + (if N.land (t_items t) (w32 (t_num t * 2) - 1) =? 0 then 0 else 1)) in
  bind (move_all fuel nb ideal (t_bkts t) (h, repeat (mkbucket None 0 0) (N.to_nat nb), 0)) (fun r =>
  let '(h, bs, nonideal) := r in
  let ineff := if N.shiftr (t_items t) 1 <? nonideal then w32 (t_ineff t + 1) else 0 in
  Some (false, h, mktable bs nb (w32 (t_log2 t + 1)) (t_items t) (t_tail t) ideal nonideal ineff (t_noexp t || (1 <? ineff)))).
(** HASH_ADD_TO_TABLE, libks/map.c:399-421. *)
Definition add_to_table (ok : bool) (fuel : nat) (hashv : N) (add : id) (h : heap) (t : table) : option (bool * heap * table) :=
  let items := w32 (t_items t + 1) in
  let idx := to_bkt hashv (t_num t) in
  bind (nth_error (t_bkts t) idx) (fun b =>
  let count := w32 (k_count b + 1) in
  bind (modify add (fun e => set_hprev None (set_hnext (k_head b) e)) h) (fun h =>
  bind (modify_opt (k_head b) (set_hprev (Some add)) h) (fun h =>
  let t := mktable (set_nth idx (mkbucket (Some add) count (k_mult b)) (t_bkts t)) (t_num t) (t_log2 t) items (t_tail t) (t_ideal t) (t_nonideal t) (t_ineff t) (t_noexp t) in
  if (w32 ((k_mult b + 1) * 10) <=? count) && negb (t_noexp t) then expand ok fuel h t else Some (false, h, t)))).
(** HASH_APPEND_LIST, libks/map.c:423-430. *)
Definition append_list (add : id) (h : heap) (t : table) : option (heap * table) :=
  bind (modify add (fun e => set_prev (t_tail t) (set_next None e)) h) (fun h =>
  bind (t_tail t) (fun tl =>
  bind (modify tl (set_next (Some add)) h) (fun h =>
  Some (h, mktable (t_bkts t) (t_num t) (t_log2 t) (t_items t) (Some add) (t_ideal t) (t_nonideal t) (t_ineff t) (t_noexp t))))).

Section Hash.
(** Any hash function. *)
Variable hash : bytes -> N.

(** map_insert, map_insert_n, map_alloc_element and HASH_ADD, libks/map.c:148-171, 246-268,
    378-397.  The value is zeroed; [zero] is as many bytes.  [ok1]..[ok3] say whether calloc
    delivers the element, the table and more buckets.  The result is the element, [None] for
    NULL. *)
Definition insert (ok1 ok2 ok3 : bool) (zero key : bytes) (m : map) : option (option id * map) :=
  if negb ok1 then Some (None, m) else
  let add := p_fresh m in
  let h : heap := fun j => if Nat.eqb j add then Some (mkelem None None None None key (hash key) zero) else p_heap m j in
  let fresh := S add in
  let fin h head (r : option (bool * heap * table)) := bind r (fun r => let '(e, h, t) := r in Some (if (e : bool) then None else Some add, mkmap h fresh head (Some t))) in
  match p_head m with
  | None =>
      if ok2 then fin h (Some add) (add_to_table ok3 fresh (hash key) add h (make_table add)) else Some (None, mkmap h fresh None None)
  | Some _ =>
      bind (p_tbl m) (fun t =>
      bind (append_list add h t) (fun ht =>
      fin (fst ht) (p_head m) (add_to_table ok3 fresh (hash key) add (fst ht) (snd ht))))
  end.
(** The loop of HASH_FIND, libks/map.c:579-585. *)
Fixpoint search (fuel : nat) (h : heap) (hashv : N) (key : bytes) (cur : option id) : option (option id) :=
  match cur with
  | None => Some None
  | Some i =>
      match fuel with
      | O => None
      | S f => bind (h i) (fun e =>
          if (e_hash e =? hashv) && (if list_eq_dec ascii_dec (e_key e) key then true else false) then Some (Some i) else search f h hashv key (e_hnext e))
      end
  end.
(** HASH_FIND with map_find and map_find_n, libks/map.c:182-206, 567-586. *)
Definition find (key : bytes) (m : map) : option (option id) :=
  match p_head m with
  | None => Some None
  | Some _ =>
      bind (p_tbl m) (fun t =>
      bind (nth_error (t_bkts t) (to_bkt (hash key) (t_num t))) (fun b =>
      search (p_fresh m) (p_heap m) (hash key) key (k_head b)))
  end.
(** HASH_DEL_IN_BKT, libks/map.c:470-485. *)
Definition del_in_bkt (del : id) (h : heap) (t : table) : option (heap * table) :=
  bind (h del) (fun e =>
  let idx := to_bkt (e_hash e) (t_num t) in
  bind (nth_error (t_bkts t) idx) (fun b =>
  let b' := mkbucket (match k_head b with Some i => if Nat.eqb i del then e_hnext e else k_head b | None => None end) (w32 (k_count b + (2 ^ 32 - 1))) (k_mult b) in
  bind (modify_opt (e_hprev e) (set_hnext (e_hnext e)) h) (fun h =>
  bind (modify_opt (e_hnext e) (set_hprev (e_hprev e)) h) (fun h =>
  Some (h, mktable (set_nth idx b' (t_bkts t)) (t_num t) (t_log2 t) (t_items t) (t_tail t) (t_ideal t) (t_nonideal t) (t_ineff t) (t_noexp t)))))).
(** HASH_DELETE, libks/map.c:444-468. *)
Definition delete (del : id) (m : map) : option map :=
  bind (p_tbl m) (fun t =>
  bind (p_heap m del) (fun e =>
  match e_prev e, e_next e with
  | None, None => bind (release del (p_heap m)) (fun h => Some (mkmap h (p_fresh m) None None))
  | pv, nx =>
      let tail := match t_tail t with Some i => if Nat.eqb i del then pv else t_tail t | None => None end in
      bind (modify_opt pv (set_next nx) (p_heap m)) (fun h =>
      let head := match pv with Some _ => p_head m | None => nx end in
      bind (modify_opt nx (set_prev pv) h) (fun h =>
      bind (del_in_bkt del h (mktable (t_bkts t) (t_num t) (t_log2 t) (t_items t) tail (t_ideal t) (t_nonideal t) (t_ineff t) (t_noexp t))) (fun ht =>
      let t := snd ht in
      bind (release del (fst ht)) (fun h =>
      Some (mkmap h (p_fresh m) head (Some (mktable (t_bkts t) (t_num t) (t_log2 t) (w32 (t_items t + (2 ^ 32 - 1))) (t_tail t) (t_ideal t) (t_nonideal t) (t_ineff t) (t_noexp t))))))))
  end)).
(** map_remove, libks/map.c:208-222. *)
Definition remove (key : bytes) (m : map) : option map :=
  bind (find key m) (fun r => match r with None => Some m | Some i => delete i m end).
(** map_free, libks/map.c:132-146. *)
Fixpoint free_from (fuel : nat) (cur : option id) (m : map) : option map :=
  match cur with
  | None => Some m
  | Some i => match fuel with O => None | S f => bind (p_heap m i) (fun e => bind (delete i m) (free_from f (e_next e))) end
  end.
Definition free (m : map) : option map := free_from (p_fresh m) (p_head m) m.
End Hash.

(** map_iterate, libks/map.c:224-244; struct map_iterator. *)
Record iter := { it_el : option id; it_nx : option id }.
Definition iterate (m : map) (it : iter) : option (option id * iter) :=
  match it_el it, it_nx it with
  | None, None =>
      match p_head m with
      | None => Some (None, it)
      | Some i => bind (p_heap m i) (fun e => Some (Some i, {| it_el := Some i; it_nx := e_next e |}))
      end
  | _, None => Some (None, it)
  | _, Some i => bind (p_heap m i) (fun e => Some (Some i, {| it_el := it_el it; it_nx := e_next e |}))
  end.
Fixpoint iterate_all (fuel : nat) (m : map) (it : iter) : option (list id) :=
  match fuel with
  | O => None
  | S f => bind (iterate m it) (fun r => match r with (None, _) => Some [] | (Some i, it) => bind (iterate_all f m it) (fun l => Some (i :: l)) end)
  end.
(** map_init, libks/map.c:101-130. *)
Definition empty : map := mkmap (fun _ => None) 0%nat None None.
