(* Model of c/src/hashset.c: a hash table from elements to the entries of a doubly linked list.
   Entries live in a heap indexed by nat; a freed entry becomes None and reading it is undefined
   behaviour (None).  Not modelled: freeing of the elements themselves (free_elem_i). *)
From Verif Require Import Util Hash_Model.
Open Scope nat_scope.

Section HashSet.
  Variable K : Type.
  Variable hash : K -> Z.
  Variables eqb same : K -> K -> bool.
  Variable by_ptr : bool.

  (* include/hashset.h:12-16 HashSetEntry *)
  Record node := mkNode { n_elem : K; n_next : option nat; n_prev : option nat }.
  Definition heap := list (option node).
  (* include/hashset.h:18-37 HashSet *)
  Record hset := mkHs { hs_heap : heap; hs_first : option nat; hs_last : option nat; hs_ht : hasht K nat; hs_size : nat }.

  Definition get (hp : heap) (i : nat) : option node := do x <- nth_error hp i; x.
  Definition set_next (hp : heap) (i : nat) (n : option nat) : option heap :=
    do x <- get hp i; Some (upd hp i (Some (mkNode (n_elem x) n (n_prev x)))).
  Definition set_prev (hp : heap) (i : nat) (p : option nat) : option heap :=
    do x <- get hp i; Some (upd hp i (Some (mkNode (n_elem x) (n_next x) p))).
  Definition same_ptr (a b : option nat) : bool :=
    match a, b with Some x, Some y => x =? y | None, None => true | _, _ => false end.

  (* hashset.c:11-18 hs_alloc with 20-39 hs_new / hs_new_str / hs_new_ptr *)
  Definition hs_new : hset := mkHs [] None None (h_new K nat) 0.
  (* hashset.c:73-88 append *)
  Definition append (hs : hset) (e : K) : option hset :=
    let i := length (hs_heap hs) in
    let hp := hs_heap hs ++ [Some (mkNode e None (hs_last hs))] in
    do r <- match hs_first hs with
            | None => Some (hp, Some i, Some i)
            | Some f => do l <- hs_last hs; do hp1 <- set_next hp l (Some i); Some (hp1, Some f, Some i)
            end;
    let '(hp1, f, l) := r in
    do q <- h_set K nat hash eqb same by_ptr (hs_ht hs) e i;
    Some (mkHs hp1 f l (snd q) (hs_size hs + 1)).
  Definition with_ht (hs : hset) (ht : hasht K nat) : hset := mkHs (hs_heap hs) (hs_first hs) (hs_last hs) ht (hs_size hs).
  (* hashset.c:90-111 hs_add *)
  Definition hs_add (hs : hset) (e : K) : option (status * hset) :=
    do q <- h_has_key K nat hash eqb same by_ptr (hs_ht hs) e;
    let hs1 := with_ht hs (snd q) in
    match fst q with
    | DoesNotExist => do hs2 <- append hs1 e; Some (DoesNotExist, hs2)
    | st => Some (st, hs1)
    end.
  (* hashset.c:113-128 hs_add_safe *)
  Definition hs_add_safe (hs : hset) (e : K) : option (bool * hset) :=
    do q <- h_has_key K nat hash eqb same by_ptr (hs_ht hs) e;
    let hs1 := with_ht hs (snd q) in
    match fst q with
    | KeyEqual => Some (false, hs1)
    | KeySame => Some (true, hs1)
    | DoesNotExist => do hs2 <- append hs1 e; Some (true, hs2)
    end.
  (* hashset.c:130-157 hs_rem *)
  Definition hs_rem (hs : hset) (e : K) : option (option K * hset) :=
    do q <- h_get K nat hash eqb same by_ptr (hs_ht hs) e;
    match fst q with
    | None => Some (None, with_ht hs (snd q))
    | Some i =>
        do x <- get (hs_heap hs) i;
        do r <- (if same_ptr (hs_first hs) (hs_last hs) then Some (hs_heap hs, None, None)
                 else if same_ptr (hs_first hs) (Some i) then
                   do f <- n_next x; do hp <- set_prev (hs_heap hs) f None; Some (hp, Some f, hs_last hs)
                 else if same_ptr (hs_last hs) (Some i) then
                   do l <- n_prev x; do hp <- set_next (hs_heap hs) l None; Some (hp, hs_first hs, Some l)
                 else
                   do p <- n_prev x; do n <- n_next x;
                   do hp <- set_next (hs_heap hs) p (Some n);
                   do hp' <- set_prev hp n (Some p); Some (hp', hs_first hs, hs_last hs));
        let '(hp, f, l) := r in
        do y <- get hp i;
        do d <- h_del K nat hash eqb same by_ptr (snd q) (n_elem y);
        Some (Some (n_elem y), mkHs (upd hp i None) f l (snd d) (hs_size hs - 1))
    end.
  (* hashset.c:159-167 hs_del *)
  Definition hs_del (hs : hset) (e : K) : option (bool * hset) :=
    do r <- hs_rem hs e; Some (match fst r with Some _ => true | None => false end, snd r).
  (* hashset.c:169-172 hs_exists *)
  Definition hs_exists (hs : hset) (e : K) : option (status * hset) :=
    do q <- h_has_key K nat hash eqb same by_ptr (hs_ht hs) e; Some (fst q, with_ht hs (snd q)).
  (* hashset.c:187-191 hs_orig *)
  Definition hs_orig (hs : hset) (e : K) : option (option K * hset) :=
    do q <- h_get K nat hash eqb same by_ptr (hs_ht hs) e;
    match fst q with
    | None => Some (None, with_ht hs (snd q))
    | Some i => do x <- get (hs_heap hs) i; Some (Some (n_elem x), with_ht hs (snd q))
    end.
  (* for (entry = hs->first; entry; entry = entry->next); None = dangling pointer or endless *)
  Fixpoint walk (fuel : nat) (hp : heap) (p : option nat) : option (list K) :=
    match p with
    | None => Some []
    | Some i => match fuel with
                | O => None
                | S f => do x <- get hp i; do r <- walk f hp (n_next x); Some (n_elem x :: r)
                end
    end.
  Definition hs_elems (hs : hset) : option (list K) := walk (S (length (hs_heap hs))) (hs_heap hs) (hs_first hs).
  (* hashset.c:41-52, 54-58 hs_clear: walks the list freeing every entry *)
  Fixpoint free_all (fuel : nat) (hp : heap) (p : option nat) : option heap :=
    match p with
    | None => Some hp
    | Some i => match fuel with
                | O => None
                | S f => do x <- get hp i; free_all f (upd hp i None) (n_next x)
                end
    end.
  Definition hs_clear (hs : hset) : option hset :=
    do hp <- free_all (S (length (hs_heap hs))) (hs_heap hs) (hs_first hs);
    Some (mkHs hp None None (h_clear K nat (hs_ht hs)) 0).
  (* hashset.c:174-185 hs_merge (the other set is then freed) *)
  Fixpoint add_all (hs : hset) (l : list K) : option hset :=
    match l with [] => Some hs | e :: t => do r <- hs_add hs e; add_all (snd r) t end.
  Definition hs_merge (hs other : hset) : option hset := do l <- hs_elems other; add_all hs l.
End HashSet.
Arguments mkNode {K}. Arguments n_elem {K}. Arguments n_next {K}. Arguments n_prev {K}.
Arguments mkHs {K}. Arguments hs_heap {K}. Arguments hs_first {K}. Arguments hs_last {K}. Arguments hs_ht {K}. Arguments hs_size {K}.
