(* Model of Ferret::Utils::PriorityQueue, ruby/ext/r_utils.c 730-1042: a heap of its own, compared by the methods of Ruby.
   A comparison is told by its number, so that it may answer differently each time, and may raise (None), which leaves the functions at once (longjmp).  Cells of the heap are as in PQueue_Model:
   None is a cell that holds no element of the queue.  Comparing such a cell, an access outside of the heap and a call of a block that was collected are undefined (None).
   Simplified: a comparison does not touch the queue itself (REALLOC_N moves the heap under pq_up then), an element is in one place only, capacities are those of a C int, and a collection happens between calls. *)
From Verif Require Import Util PQueue_Model.
Open Scope nat_scope.

Section RPQ.
  Variables A P : Type.
  (* `a < b`, or what a block or lambda says, the n-th time; None: it raises *)
  Variable less : option P -> nat -> A -> A -> option bool.
  (* r_utils.c 733-740 PriQ; mem_capa is the length of the heap.  freed: the block has been collected *)
  Record priq := mkQ { q_heap : list (option A); q_size : nat; q_capa : nat; q_proc : option P; q_freed : bool }.
  Definition PQ_START_CAPA : nat := 32.
  Definition with_heap (q : priq) (h : list (option A)) (n : nat) : priq := mkQ h n (q_capa q) (q_proc q) (q_freed q).

  (* r_utils.c 744-752 frb_pq_lt *)
  Definition frb_pq_lt (q : priq) (t : nat) (a b : A) : option (option bool) := if q_freed q then None else Some (less (q_proc q) t a b).
  (* r_utils.c 754-769 pq_up: the heap, the comparisons so far, whether one raised *)
  Fixpoint pq_up (fuel : nat) (q : priq) (t : nat) (h : list (option A)) (i : nat) (node : A) : option (list (option A) * nat * bool) :=
    match fuel with
    | O => None
    | S f =>
        let j := i / 2 in
        if 0 <? j then
          do p <- elt A h j;
          do c <- frb_pq_lt q t node p;
          match c with
          | None => Some (h, S t, true)
          | Some true => pq_up f q (S t) (upd h i (Some p)) j node
          | Some false => Some (upd h i (Some node), S t, false)
          end
        else Some (upd h i (Some node), t, false)
    end.
  (* the smaller child, None if the comparison raises *)
  Definition pq_child (q : priq) (t : nat) (h : list (option A)) (i : nat) : option (option nat * nat) :=
    let j := 2 * i in
    let k := j + 1 in
    if k <=? q_size q then do a <- elt A h k; do b <- elt A h j; do c <- frb_pq_lt q t a b; Some (match c with None => None | Some x => Some (if x then k else j) end, S t)
    else Some (Some j, t).
  (* r_utils.c 771-794 pq_down *)
  Fixpoint down (fuel : nat) (q : priq) (t : nat) (h : list (option A)) (i : nat) (node : option A) : option (list (option A) * nat * bool) :=
    match fuel with
    | O => None
    | S f =>
        do c <- pq_child q t h i;
        match fst c with
        | None => Some (h, snd c, true)
        | Some j =>
            if j <=? q_size q then
              do x <- elt A h j;
              do n <- node;
              do r <- frb_pq_lt q (snd c) x n;
              match r with
              | None => Some (h, S (snd c), true)
              | Some true => down f q (S (snd c)) (upd h i (Some x)) j node
              | Some false => Some (upd h i node, S (snd c), false)
              end
            else Some (upd h i node, snd c, false)
        end
    end.
  Definition pq_down (q : priq) (t : nat) : option (priq * nat * bool) :=
    do node <- nth_error (q_heap q) 1;
    do r <- down (S (q_size q)) q t (q_heap q) 1 node;
    Some (with_heap q (fst (fst r)) (q_size q), snd (fst r), snd r).
  (* r_utils.c 796-805 pq_push *)
  Definition pq_push (q : priq) (t : nat) (e : A) : option (priq * nat * bool) :=
    let size := q_size q + 1 in
    let h := if length (q_heap q) <=? size then q_heap q ++ repeat None (length (q_heap q)) else q_heap q in
    do _ <- nth_error h size;
    do r <- pq_up (S size) q t (upd h size (Some e)) size e;
    Some (with_heap q (fst (fst r)) size, snd (fst r), snd r).
  (* r_utils.c 809-817 frb_pq_mark: what the collector is told to keep *)
  Inductive obj := OElem (x : option A) | OProc (p : P).
  Definition frb_pq_mark (q : priq) : list obj := map OElem (firstn (q_size q) (skipn 1 (q_heap q))).
  (* a collection, when only the queue has the block *)
  Definition collect (q : priq) : priq :=
    mkQ (q_heap q) (q_size q) (q_capa q) (q_proc q) (match q_proc q with Some _ => q_freed q || negb (existsb (fun o => match o with OProc _ => true | _ => false end) (frb_pq_mark q)) | None => q_freed q end).
  (* r_utils.c 825-834 frb_pq_alloc *)
  Definition frb_pq_alloc : priq := mkQ (repeat None PQ_START_CAPA) 0 PQ_START_CAPA None false.
  (* r_utils.c 849-896 frb_pq_init: the first argument, whether there are more, the block.  :less_than_proc is an option that nothing asks for *)
  Inductive arg := Nothing | Capacity (k : Z) | Options (capacity : option Z) (less_than less_than_proc : option P) | Another.
  Inductive ret := Self | Elem (x : option A) | Number (n : nat) | Queue (i : nat) | Raised | ArgError | IndexError.
  Definition frb_pq_init (a : arg) (more : bool) (block : option P) : ret + priq :=
    let q := frb_pq_alloc in
    match a with
    | Nothing => inr q
    | Another => inl ArgError
    | Capacity _ | Options _ _ _ =>
        let capa := match a with Capacity k => k | Options (Some k) _ _ => k | _ => Z.of_nat PQ_START_CAPA end in
        let p := match a with Options _ (Some p) _ => Some p | _ => None end in
        if (capa <? 0)%Z then inl IndexError
        else if more then inl ArgError
        else inr (mkQ (q_heap q) 0 (Z.to_nat capa) (match block with Some b => Some b | None => p end) false)
    end.
  (* r_utils.c 904-914 frb_pq_clone: size + 1 cells are copied *)
  Definition frb_pq_clone (q : priq) : priq := mkQ (firstn (q_size q + 1) (q_heap q) ++ repeat None (length (q_heap q) - (q_size q + 1))) (q_size q) (q_capa q) (q_proc q) (q_freed q).
  (* r_utils.c 922-929 frb_pq_clear *)
  Definition frb_pq_clear (q : priq) : priq := with_heap q (q_heap q) 0.
  (* r_utils.c 939-953 frb_pq_insert *)
  Definition frb_pq_insert (q : priq) (t : nat) (e : A) : option (priq * nat * bool) :=
    if q_size q <? q_capa q then pq_push q t e
    else if 0 <? q_size q then
      do x <- elt A (q_heap q) 1;
      do c <- frb_pq_lt q t x e;
      match c with
      | None => Some (q, S t, true)
      | Some true => pq_down (with_heap q (upd (q_heap q) 1 (Some e)) (q_size q)) (S t)
      | Some false => Some (q, S t, false)
      end
    else Some (q, t, false).
  (* the element at the top is changed in place, then r_utils.c 963-970 frb_pq_adjust *)
  Definition change_top (q : priq) (f : A -> A) : priq := if 0 <? q_size q then with_heap q (upd (q_heap q) 1 (do x <- elt A (q_heap q) 1; Some (f x))) (q_size q) else q.
  Definition frb_pq_adjust (q : priq) (t : nat) : option (priq * nat * bool) := pq_down q t.
  (* r_utils.c 979-985 frb_pq_top *)
  Definition frb_pq_top (q : priq) : option (option A) := if 0 <? q_size q then nth_error (q_heap q) 1 else Some None.
  (* r_utils.c 993-1009 frb_pq_pop; None for the result if it raised *)
  Definition frb_pq_pop (q : priq) (t : nat) : option (option A * (priq * nat * bool)) :=
    if 0 <? q_size q then
      do r <- nth_error (q_heap q) 1;
      do l <- nth_error (q_heap q) (q_size q);
      do d <- pq_down (with_heap q (upd (upd (q_heap q) 1 l) (q_size q) None) (q_size q - 1)) t;
      Some (r, d)
    else Some (None, (q, t, false)).

  (* queues are told by numbers, in the order they were made *)
  Inductive call := New (a : arg) (more : bool) (block : option P) | Clone (i : nat) | Insert (i : nat) (e : A) | Adjust (i : nat) (f : A -> A) | Top (i : nat) | Pop (i : nat) | Size (i : nat) | Capa (i : nat) | Clear (i : nat) | Collect (i : nat).
  Definition back (qs : list priq) (i : nat) (v : ret) (r : priq * nat * bool) : ret * (list priq * nat) := (if snd r then Raised else v, (upd qs i (fst (fst r)), snd (fst r))).
  Definition step (w : list priq * nat) (o : call) : option (ret * (list priq * nat)) :=
    let '(qs, t) := w in
    match o with
    | New a more block => Some (match frb_pq_init a more block with inl e => (e, w) | inr q => (Queue (length qs), (qs ++ [q], t)) end)
    | Clone i => do q <- nth_error qs i; Some (Queue (length qs), (qs ++ [frb_pq_clone q], t))
    | Insert i e => do q <- nth_error qs i; do r <- frb_pq_insert q t e; Some (back qs i Self r)
    | Adjust i f => do q <- nth_error qs i; do r <- frb_pq_adjust (change_top q f) t; Some (back qs i Self r)
    | Top i => do q <- nth_error qs i; do x <- frb_pq_top q; Some (Elem x, w)
    | Pop i => do q <- nth_error qs i; do r <- frb_pq_pop q t; Some (back qs i (Elem (fst r)) (snd r))
    | Size i => do q <- nth_error qs i; Some (Number (q_size q), w)
    | Capa i => do q <- nth_error qs i; Some (Number (q_capa q), w)
    | Clear i => do q <- nth_error qs i; Some (Self, (upd qs i (frb_pq_clear q), t))
    | Collect i => do q <- nth_error qs i; Some (Self, (upd qs i (collect q), t))
    end.
  Fixpoint run (w : list priq * nat) (os : list call) : option (list ret * (list priq * nat)) :=
    match os with [] => Some ([], w) | o :: l => do x <- step w o; do y <- run (snd x) l; Some (fst x :: fst y, snd y) end.
End RPQ.
Arguments mkQ {A P}. Arguments q_heap {A P}. Arguments q_size {A P}. Arguments q_capa {A P}. Arguments q_proc {A P}. Arguments q_freed {A P}. Arguments with_heap {A P}.
Arguments Nothing {P}. Arguments Capacity {P}. Arguments Options {P}. Arguments Another {P}.
Arguments Self {A}. Arguments Elem {A}. Arguments Number {A}. Arguments Queue {A}. Arguments Raised {A}. Arguments ArgError {A}. Arguments IndexError {A}.
Arguments New {A P}. Arguments Clone {A P}. Arguments Insert {A P}. Arguments Adjust {A P}. Arguments Top {A P}. Arguments Pop {A P}. Arguments Size {A P}. Arguments Capa {A P}. Arguments Clear {A P}. Arguments Collect {A P}.
