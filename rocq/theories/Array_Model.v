(* Model of c/src/array.c: growable arrays of pointers.  An element is an option, None being NULL; the block is the list of its
   ary_capa cells.  The result None is undefined behaviour (access outside the block, overflow of the capacity). *)
From Verif Require Import Util.
Open Scope nat_scope.

Section Arr.
  Variable A : Type.
  Record ary := mkAry { cells : list (option A); sz : nat }.
  Definition capa (a : ary) : nat := length (cells a).
  Definition ARY_INIT_CAPA : nat := 8.
  (* array.c:8-19 ary_new_i (ecalloc clears the block) *)
  Definition ary_new (init_capa : Z) : ary :=
    mkAry (repeat None (Z.to_nat (if (init_capa <=? 0)%Z then Z.of_nat ARY_INIT_CAPA else init_capa))) 0.
  (* while (size >= capa) capa <<= 1 *)
  Fixpoint grow (fuel size capa : nat) : option nat :=
    match fuel with
    | O => None
    | S f => if size <? capa then Some capa
             else if (2 ^ 31 <=? 2 * Z.of_nat capa)%Z then None else grow f size (2 * capa)
    end.
  (* array.c:21-42 ary_resize_i *)
  Definition resize (a : ary) (index : nat) : option ary :=
    let size := index + 1 in
    if sz a <? size then
      if capa a <=? size then
        do c <- grow 32 size (capa a);
        Some (mkAry (firstn (sz a) (cells a) ++ repeat None (c - sz a)) size)
      else Some (mkAry (cells a) size)
    else Some a.
  Definition write (a : ary) (i : nat) (v : option A) : option ary :=
    if i <? capa a then Some (mkAry (upd (cells a) i v) (sz a)) else None.
  Definition read (a : ary) (i : nat) : option (option A) := nth_error (cells a) i.
  (* memmove of n cells inside the block *)
  Definition memmove (a : ary) (dst src n : nat) : option ary :=
    if (dst + n <=? capa a) && (src + n <=? capa a) then
      Some (mkAry (firstn dst (cells a) ++ firstn n (skipn src (cells a)) ++ skipn (dst + n) (cells a)) (sz a))
    else None.
  (* array.c:44-54 ary_set_i; the inner None is INDEX_ERROR *)
  Definition ary_set (a : ary) (index : Z) (v : option A) : option (option ary) :=
    let index := if (index <? 0)%Z then (index + Z.of_nat (sz a))%Z else index in
    if (index <? 0)%Z then Some None
    else do b <- resize a (Z.to_nat index); do c <- write b (Z.to_nat index) v; Some (Some c).
  (* array.c:56-67 ary_get_i *)
  Definition ary_get (a : ary) (index : Z) : option (option A) :=
    let index := if (index <? 0)%Z then (index + Z.of_nat (sz a))%Z else index in
    if ((0 <=? index) && (index <? Z.of_nat (sz a)))%Z then read a (Z.to_nat index) else Some None.
  (* array.c:69-74 ary_push_i *)
  Definition ary_push (a : ary) (v : option A) : option ary :=
    do b <- resize a (sz a); write b (sz a) v.
  (* array.c:76-81 ary_pop_i; an empty array reads in front of the elements *)
  Definition ary_pop (a : ary) : option (option A * ary) :=
    match sz a with
    | O => None
    | S n => do v <- read a n; do b <- write (mkAry (cells a) n) n None; Some (v, b)
    end.
  (* array.c:83-89 ary_unshift_i *)
  Definition ary_unshift (a : ary) (v : option A) : option ary :=
    do b <- resize a (sz a); do c <- memmove b 1 0 (sz a); write c 0 v.
  (* array.c:91-98 ary_shift_i *)
  Definition ary_shift (a : ary) : option (option A * ary) :=
    do v <- read a 0;
    match sz a with
    | O => None
    | S n => do b <- memmove (mkAry (cells a) n) 0 1 n; do c <- write b n None; Some (v, c)
    end.
  (* array.c:100-112 ary_remove_i: moves two cells more than there are elements behind index *)
  Definition ary_remove (a : ary) (index : Z) : option (option A * ary) :=
    if ((0 <=? index) && (index <? Z.of_nat (sz a)))%Z then
      let i := Z.to_nat index in
      do v <- read a i; do b <- memmove a i (i + 1) (sz a - i + 1); Some (v, mkAry (cells b) (sz a - 1))
    else Some (None, a).
End Arr.
Arguments mkAry {A}. Arguments cells {A}. Arguments sz {A}. Arguments capa {A}.
