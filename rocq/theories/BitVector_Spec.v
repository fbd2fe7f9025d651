(* Sets of natural numbers, and expressions building them; every bit vector a program can make is the
   value of such an expression. *)
From Verif Require Import Util BitVector_Model.
Open Scope nat_scope.

Inductive setop := SSet (i : nat) | SUnset (i : nat) | SClear.
Definition set_step (s : nat -> bool) (o : setop) : nat -> bool :=
  match o with
  | SSet i => fun j => (j =? i) || s j
  | SUnset i => fun j => negb (j =? i) && s j
  | SClear => fun _ => false
  end.
Fixpoint set_after (s : nat -> bool) (ops : list setop) : nat -> bool :=
  match ops with [] => s | o :: t => set_after (set_step s o) t end.
Definition bool_op (o : bop) (x y : bool) : bool :=
  match o with BAnd => x && y | BOr => x || y | BXor => xorb x y end.

(* programs over bit vectors: creation, a series of updates, and/or/xor (allocating or overwriting the
   first operand), not (allocating or in place) *)
Inductive bexpr :=
| ENew (capa : nat)
| EUpd (e : bexpr) (ops : list setop)
| EBin (o : bop) (inplace : bool) (a b : bexpr)
| ENot (inplace : bool) (e : bexpr).

(* the set denoted *)
Fixpoint den (e : bexpr) : nat -> bool :=
  match e with
  | ENew _ => fun _ => false
  | EUpd e ops => set_after (den e) ops
  | EBin o _ a b => fun i => bool_op o (den a i) (den b i)
  | ENot _ e => fun i => negb (den e i)
  end.
(* does the set contain all large integers? *)
Fixpoint cofinite (e : bexpr) : bool :=
  match e with
  | ENew _ => false
  | EUpd e ops => if existsb (fun o => match o with SClear => true | _ => false end) ops then false else cofinite e
  | EBin o _ a b => bool_op o (cofinite a) (cofinite b)
  | ENot _ e => negb (cofinite e)
  end.
(* Expressions whose vector may be updated or overwritten; see C10_update_after_or_refuted and
   C10_inplace_and_refuted for what happens otherwise. *)
Definition updatable (e : bexpr) : bool :=
  match e with
  | ENew _ | EUpd _ _ | ENot _ _ => true
  | EBin o true a b => true
  | EBin o false a b => negb (cofinite e)
  end.
Fixpoint admissible (e : bexpr) : Prop :=
  match e with
  | ENew _ => True
  | EUpd e ops => admissible e /\ updatable e = true
  | EBin o false a b => admissible a /\ admissible b
  | EBin o true a b => admissible a /\ admissible b /\ updatable a = true /\
                       bool_op o (cofinite a) (cofinite b) = cofinite a
  | ENot _ e => admissible e
  end.

(* running a program on the model *)
Definition bv_step (b : bv) (o : setop) : option bv :=
  match o with SSet i => bv_set b i | SUnset i => bv_unset b i | SClear => Some (bv_clear b) end.
Fixpoint bv_run (b : bv) (ops : list setop) : option bv :=
  match ops with [] => Some b | o :: t => do b1 <- bv_step b o; bv_run b1 t end.
Fixpoint eval (junk : nat -> Z) (e : bexpr) : option bv :=
  match e with
  | ENew c => Some (bv_new_capa c)
  | EUpd e ops => do b <- eval junk e; bv_run b ops
  | EBin o false x y => do a <- eval junk x; do b <- eval junk y; bv_bin junk o a b
  | EBin o true x y => do a <- eval junk x; do b <- eval junk y; bv_bin_x junk o a b
  | ENot false x => do a <- eval junk x; bv_not junk a
  | ENot true x => do a <- eval junk x; bv_not_x junk a
  end.

(* l lists the elements of the set s in increasing order *)
Definition lists (l : list nat) (s : nat -> bool) : Prop :=
  StronglySorted lt l /\ forall i, In i l <-> s i = true.

(* repeated bv_scan_next until -1; n bounds the number of calls *)
Fixpoint scan_all (n : nat) (b : bv) : option (list nat) :=
  match n with
  | O => None
  | S n' => do r <- bv_scan_next b;
            if (fst r =? -1)%Z then Some []
            else do t <- scan_all n' (snd r); Some (Z.to_nat (fst r) :: t)
  end.
