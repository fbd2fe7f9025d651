(* Model of c/src/priorityqueue.c: a binary heap in an array used from index 1.
   The array is a list of mem_capa cells; None is a NULL or never written cell, and comparing one is
   undefined behaviour (result None of the function).  Not modelled: free_elem_i (memory). *)
From Verif Require Import Util.
Open Scope nat_scope.

Section PQ.
  Variable A : Type.
  Variable lt : A -> A -> bool.  (* less_than_i *)

  Record pq := mkPq { pq_heap : list (option A); pq_size : nat; pq_capa : nat }.
  Definition START_CAPA : nat := 127.
  Inductive ins := Added | Inserted | Dropped.

  (* priorityqueue.c:7-19 pq_new; mem_capa is the length of the array *)
  Definition pq_new (capa : nat) : pq :=
    mkPq (repeat None ((if capa <? START_CAPA then capa else START_CAPA) + 1)) 0 capa.
  (* an element which is compared *)
  Definition elt (h : list (option A)) (i : nat) : option A := do x <- nth_error h i; x.

  (* priorityqueue.c:59-74 pq_up: node moves from index i towards the root *)
  Fixpoint up (fuel : nat) (h : list (option A)) (i : nat) (node : A) : option (list (option A)) :=
    match fuel with
    | O => None
    | S f =>
        let j := i / 2 in
        if 0 <? j then
          do p <- elt h j;
          if lt node p then up f (upd h i (Some p)) j node
          else Some (upd h i (Some node))
        else Some (upd h i (Some node))
    end.
  (* the smaller child of i: j = i << 1, or k = j + 1 *)
  Definition child (h : list (option A)) (i size : nat) : option nat :=
    let j := 2 * i in
    let k := j + 1 in
    if k <=? size then do a <- elt h k; do b <- elt h j; Some (if lt a b then k else j)
    else Some j.
  (* priorityqueue.c:76-99 pq_down *)
  Fixpoint down (fuel : nat) (h : list (option A)) (i size : nat) (node : option A) : option (list (option A)) :=
    match fuel with
    | O => None
    | S f =>
        do j <- child h i size;
        if j <=? size then
          do c <- elt h j;
          do n <- node;
          if lt c n then down f (upd h i (Some c)) j size node
          else Some (upd h i node)
        else Some (upd h i node)
    end.
  Definition pq_down (q : pq) : option pq :=
    do node <- nth_error (pq_heap q) 1;
    do h <- down (S (pq_size q)) (pq_heap q) 1 (pq_size q) node;
    Some (mkPq h (pq_size q) (pq_capa q)).
  (* priorityqueue.c:101-110 pq_push *)
  Definition pq_push (q : pq) (e : A) : option pq :=
    let size := pq_size q + 1 in
    let h := if length (pq_heap q) <=? size then pq_heap q ++ repeat None (length (pq_heap q)) else pq_heap q in
    do _ <- nth_error h size;
    do h' <- up (S size) (upd h size (Some e)) size e;
    Some (mkPq h' size (pq_capa q)).
  (* assigning heap[1] and calling pq_down, as pq_insert and the merging enumerators do *)
  Definition pq_replace_top (q : pq) (e : A) : option pq :=
    do _ <- nth_error (pq_heap q) 1;
    pq_down (mkPq (upd (pq_heap q) 1 (Some e)) (pq_size q) (pq_capa q)).
  (* priorityqueue.c:112-129 pq_insert *)
  Definition pq_insert (q : pq) (e : A) : option (ins * pq) :=
    if pq_size q <? pq_capa q then do q' <- pq_push q e; Some (Added, q')
    else if 0 <? pq_size q then
      do t <- elt (pq_heap q) 1;
      if lt t e then do q' <- pq_replace_top q e; Some (Inserted, q')
      else Some (Dropped, q)
    else Some (Dropped, q).
  (* priorityqueue.c:131-134 pq_top *)
  Definition pq_top (q : pq) : option (option A) :=
    if 0 <? pq_size q then nth_error (pq_heap q) 1 else Some None.
  (* priorityqueue.c:136-147 pq_pop *)
  Definition pq_pop (q : pq) : option (option A * pq) :=
    if 0 <? pq_size q then
      do r <- nth_error (pq_heap q) 1;
      do l <- nth_error (pq_heap q) (pq_size q);
      let h := upd (upd (pq_heap q) 1 l) (pq_size q) None in
      do q' <- pq_down (mkPq h (pq_size q - 1) (pq_capa q));
      Some (r, q')
    else Some (None, q).
  (* priorityqueue.c:31-39 pq_clear *)
  Definition pq_clear (q : pq) : pq :=
    mkPq (match pq_heap q with [] => [] | x :: t => x :: repeat None (pq_size q) ++ skipn (pq_size q) t end) 0 (pq_capa q).
End PQ.
Arguments mkPq {A}. Arguments pq_heap {A}. Arguments pq_size {A}. Arguments pq_capa {A}.
