(* Model of c/src/hash.c (open addressing table) and c/src/hashset.c.
   Keys of type K stand for pointers: [same] is identity of pointers, [eqb] the table's eq_i and
   [hash] its hash_i.  With [by_ptr] the table is one of h_new_int / h_new_ptr (lookup_i =
   h_lookup_ptr), where a key is its own hash.  Not modelled: the free callbacks (memory), the cache of
   freed tables, int overflow of sizes (below 2^29 entries). *)
From Verif Require Import Util.
Open Scope nat_scope.

Inductive skey (K : Type) := SNull | SDummy | SKey (k : K).
Arguments SNull {K}. Arguments SDummy {K}. Arguments SKey {K}.
(* HashEntry *)
Record slot (K V : Type) := mkSlot { s_hash : Z; s_key : skey K; s_val : option V }.
Arguments mkSlot {K V}. Arguments s_hash {K V}. Arguments s_key {K V}. Arguments s_val {K V}.
(* struct Hash; mask + 1 is the length of the table *)
Record hasht (K V : Type) := mkHash { h_tbl : list (slot K V); h_fill : nat; h_size : nat }.
Arguments mkHash {K V}. Arguments h_tbl {K V}. Arguments h_fill {K V}. Arguments h_size {K V}.
Inductive status := DoesNotExist | KeyEqual | KeySame.

Section Hash.
  Variables K V : Type.
  Variable hash : K -> Z.
  Variables eqb same : K -> K -> bool.
  Variable by_ptr : bool.
  Notation slot := (slot K V). Notation hasht := (hasht K V).

  Definition null_slot : slot := mkSlot 0%Z SNull None.
  (* hash.c:166-188 h_new_str; HASH_MINSIZE = 8 *)
  Definition h_new : hasht := mkHash (repeat null_slot 8) 0 0.

  (* i = (i << 2) + i + perturb + 1; index i & mask.  Only i modulo the table size matters. *)
  Definition probe_next (n i : nat) (perturb : Z) : nat :=
    Z.to_nat ((5 * Z.of_nat i + perturb + 1) mod Z.of_nat n).
  (* The common loop of h_resize_lookup (60-82), h_lookup_ptr (84-119) and h_lookup (121-164):
     stop on an unused slot (then take the first dummy passed, if any, and note the hash in it) or on
     a slot satisfying [matches].  The code treats the first slot before the loop, with the same effect. *)
  Fixpoint probe (fuel : nat) (matches : slot -> bool) (hv : Z) (tbl : list slot) (i : nat) (perturb : Z)
      (free : option nat) : option (nat * list slot) :=
    match fuel with
    | O => None
    | S f =>
        do s <- nth_error tbl i;
        match s_key s with
        | SNull =>
            let p := match free with Some q => q | None => i end in
            do sp <- nth_error tbl p;
            Some (p, upd tbl p (mkSlot hv (s_key sp) (s_val sp)))
        | key =>
            if matches s then Some (i, tbl)
            else probe f matches hv tbl (probe_next (length tbl) i perturb) (perturb / 32)
                       (match free, key with None, SDummy => Some i | _, _ => free end)
        end
    end.
  Definition start (n : nat) (hv : Z) : nat := Z.to_nat (hv mod Z.of_nat n).
  (* None stands for an endless loop *)
  Definition probe_fuel (n : nat) : nat := 14 + n.
  Definition matches (k : K) (s : slot) : bool :=
    if by_ptr then (s_hash s =? hash k)%Z
    else match s_key s with
         | SKey k' => same k' k || ((s_hash s =? hash k)%Z && eqb k' k)
         | _ => false
         end.
  (* lookup_i *)
  Definition lookup (tbl : list slot) (k : K) : option (nat * list slot) :=
    probe (probe_fuel (length tbl)) (matches k) (hash k) tbl (start (length tbl) (hash k)) (hash k) None.
  Definition resize_lookup (tbl : list slot) (hv : Z) : option (nat * list slot) :=
    probe (probe_fuel (length tbl)) (fun _ => false) hv tbl (start (length tbl) hv) hv None.

  (* hash.c:298-341 h_resize *)
  Fixpoint newsize (fuel ns min : nat) : option nat :=
    match fuel with
    | O => None
    | S f => if ns <? min then newsize f (2 * ns) min else Some ns
    end.
  Fixpoint rehash (old : list slot) (num_active : nat) (new : list slot) : option (list slot) :=
    match num_active with
    | O => Some new
    | S n' =>
        match old with
        | [] => None
        | s :: old' =>
            match s_key s with
            | SKey k => do r <- resize_lookup new (s_hash s);
                        do sp <- nth_error (snd r) (fst r);
                        rehash old' n' (upd (snd r) (fst r) (mkSlot (s_hash sp) (SKey k) (s_val s)))
            | _ => rehash old' num_active new
            end
        end
    end.
  Definition h_resize (h : hasht) (min : nat) : option hasht :=
    do ns <- newsize (S min) 8 min;
    do t <- rehash (h_tbl h) (h_size h) (repeat null_slot ns);
    Some (mkHash t (h_size h) (h_size h)).
  Definition SLOW_DOWN : nat := Z.to_nat 50000.
  (* hash.c:343-361 h_set_ext: (new entry?, slot, table) *)
  Definition h_set_ext (h : hasht) (k : K) : option (bool * nat * hasht) :=
    do r <- lookup (h_tbl h) k;
    do s <- nth_error (snd r) (fst r);
    let h1 := mkHash (snd r) (h_fill h) (h_size h) in
    match s_key s with
    | SNull =>
        if (length (h_tbl h) - 1) * 2 <? h_fill h * 3 then
          do h2 <- h_resize h1 (h_size h * (if SLOW_DOWN <? h_size h then 4 else 2));
          do r2 <- lookup (h_tbl h2) k;
          Some (true, fst r2, mkHash (snd r2) (h_fill h2 + 1) (h_size h2 + 1))
        else Some (true, fst r, mkHash (snd r) (h_fill h + 1) (h_size h + 1))
    | SDummy => Some (true, fst r, mkHash (snd r) (h_fill h) (h_size h + 1))
    | SKey _ => Some (false, fst r, h1)
    end.
  Definition store (h : hasht) (p : nat) (k : K) (v : V) : option hasht :=
    do s <- nth_error (h_tbl h) p;
    Some (mkHash (upd (h_tbl h) p (mkSlot (s_hash s) (SKey k) (Some v))) (h_fill h) (h_size h)).
  Definition key_status (k' k : K) : status := if same k' k then KeySame else KeyEqual.
  (* hash.c:363-387 h_set *)
  Definition h_set (h : hasht) (k : K) (v : V) : option (status * hasht) :=
    do r <- h_set_ext h k;
    let '(fresh, p, h1) := r in
    do s <- nth_error (h_tbl h1) p;
    let st := if fresh : bool then DoesNotExist
              else match s_key s with SKey k' => key_status k' k | _ => KeyEqual end in
    do h2 <- store h1 p k v;
    Some (st, h2).
  (* hash.c:389-400 h_set_safe *)
  Definition h_set_safe (h : hasht) (k : K) (v : V) : option (bool * hasht) :=
    do r <- h_set_ext h k;
    let '(fresh, p, h1) := r in
    if fresh : bool then do h2 <- store h1 p k v; Some (true, h2) else Some (false, h1).
  (* hash.c:254-258 h_get *)
  Definition h_get (h : hasht) (k : K) : option (option V * hasht) :=
    do r <- lookup (h_tbl h) k;
    do s <- nth_error (snd r) (fst r);
    Some (s_val s, mkHash (snd r) (h_fill h) (h_size h)).
  (* hash.c:277-296 h_rem; h_del (260-275) returns whether there was one *)
  Definition h_rem (h : hasht) (k : K) : option (option V * hasht) :=
    do r <- lookup (h_tbl h) k;
    do s <- nth_error (snd r) (fst r);
    match s_key s with
    | SKey _ => Some (s_val s, mkHash (upd (snd r) (fst r) (mkSlot (s_hash s) SDummy None)) (h_fill h) (h_size h - 1))
    | _ => Some (None, mkHash (snd r) (h_fill h) (h_size h))
    end.
  Definition h_del (h : hasht) (k : K) : option (bool * hasht) :=
    do r <- lookup (h_tbl h) k;
    do s <- nth_error (snd r) (fst r);
    match s_key s with
    | SKey _ => Some (true, mkHash (upd (snd r) (fst r) (mkSlot (s_hash s) SDummy None)) (h_fill h) (h_size h - 1))
    | _ => Some (false, mkHash (snd r) (h_fill h) (h_size h))
    end.
  (* hash.c:402-412 h_has_key *)
  Definition h_has_key (h : hasht) (k : K) : option (status * hasht) :=
    do r <- lookup (h_tbl h) k;
    do s <- nth_error (snd r) (fst r);
    Some (match s_key s with SKey k' => key_status k' k | _ => DoesNotExist end,
          mkHash (snd r) (h_fill h) (h_size h)).
  (* hash.c:212-233 h_clear *)
  Definition h_clear (h : hasht) : hasht := mkHash (repeat null_slot (length (h_tbl h))) 0 0.
  (* hash.c:464-475 h_each: the pairs visited; None = runs off the table *)
  Fixpoint each (n : nat) (tbl : list slot) : option (list (K * option V)) :=
    match tbl with
    | [] => match n with O => Some [] | _ => None end
    | s :: t => match n with
                | O => Some []
                | S n' => match s_key s with
                          | SKey k => do r <- each n' t; Some ((k, s_val s) :: r)
                          | _ => each n t
                          end
                end
    end.
  Definition h_each (h : hasht) : option (list (K * option V)) := each (h_size h) (h_tbl h).
End Hash.

(* hash.c:24-34 str_hash on the bytes before the terminating zero; unsigned long arithmetic *)
Definition str_hash (s : list Z) : Z := fold_left (fun h c => (37 * h + c) mod 2 ^ 64)%Z s 0%Z.
(* A string key is a pointer together with the bytes it points to. str_eq (46-49) compares the bytes. *)
Definition sptr : Type := nat * list Z.
Fixpoint bytes_eqb (a b : list Z) : bool :=
  match a, b with
  | [], [] => true
  | x :: a', y :: b' => (x =? y)%Z && bytes_eqb a' b'
  | _, _ => false
  end.
Definition str_eqb (a b : sptr) : bool := bytes_eqb (snd a) (snd b).
Definition str_same (a b : sptr) : bool := (fst a =? fst b) && str_eqb a b.
