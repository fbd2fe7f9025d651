(* Lists of pointers with the same operations. *)
From Verif Require Import Util Array_Model.
Open Scope nat_scope.

Section Spec.
  Variable A : Type.
  Inductive aop := Push (v : option A) | Pop | Unshift (v : option A) | Shift | SetAt (i : Z) (v : option A) | GetAt (i : Z) | RemoveAt (i : Z).
  Inductive ares := RNone | RErr | RVal (v : option A).
  (* negative indices count from the end *)
  Definition norm (i : Z) (l : list (option A)) : Z := if (i <? 0)%Z then (i + Z.of_nat (length l))%Z else i.
  (* what the operation does to a list; None: not defined on this list *)
  Definition l_step (l : list (option A)) (o : aop) : option (ares * list (option A)) :=
    match o with
    | Push v => Some (RNone, l ++ [v])
    | Pop => match rev l with [] => None | x :: t => Some (RVal x, rev t) end
    | Unshift v => Some (RNone, v :: l)
    | Shift => match l with [] => None | x :: t => Some (RVal x, t) end
    | SetAt i v => if (norm i l <? 0)%Z then Some (RErr, l)
                   else let n := Z.to_nat (norm i l) in Some (RNone, firstn n l ++ repeat None (n - length l) ++ v :: skipn (n + 1) l)
    | GetAt i => if ((0 <=? norm i l) && (norm i l <? Z.of_nat (length l)))%Z then Some (RVal (nth (Z.to_nat (norm i l)) l None), l) else Some (RVal None, l)
    | RemoveAt i => if ((0 <=? i) && (i <? Z.of_nat (length l)))%Z then let n := Z.to_nat i in Some (RVal (nth n l None), firstn n l ++ skipn (n + 1) l) else Some (RVal None, l)
    end.
  (* the same operation on an array *)
  Definition a_step (a : ary A) (o : aop) : option (ares * ary A) :=
    match o with
    | Push v => do b <- ary_push A a v; Some (RNone, b)
    | Pop => do r <- ary_pop A a; Some (RVal (fst r), snd r)
    | Unshift v => do b <- ary_unshift A a v; Some (RNone, b)
    | Shift => do r <- ary_shift A a; Some (RVal (fst r), snd r)
    | SetAt i v => do r <- ary_set A a i v; Some (match r with None => (RErr, a) | Some b => (RNone, b) end)
    | GetAt i => do v <- ary_get A a i; Some (RVal v, a)
    | RemoveAt i => do r <- ary_remove A a i; Some (RVal (fst r), snd r)
    end.
  (* running an operation sequence on both; None when either is undefined *)
  Fixpoint l_run (l : list (option A)) (os : list aop) : option (list ares * list (option A)) :=
    match os with [] => Some ([], l) | o :: t => do r <- l_step l o; do q <- l_run (snd r) t; Some (fst r :: fst q, snd q) end.
  Fixpoint a_run (a : ary A) (os : list aop) : option (list ares * ary A) :=
    match os with [] => Some ([], a) | o :: t => do r <- a_step a o; do q <- a_run (snd r) t; Some (fst r :: fst q, snd q) end.
  (* the elements of an array *)
  Definition contents (a : ary A) : list (option A) := firstn (sz a) (cells a).
  (* the sequence only uses indices and reaches lengths below 2^29, and removes only when the block has a spare cell behind the
     one after the last element *)
  Fixpoint l_safe (a : ary A) (os : list aop) : Prop :=
    match os with
    | [] => True
    | o :: t =>
        (match o with
         | RemoveAt i => (0 <= i < Z.of_nat (sz a))%Z -> sz a + 1 < capa a
         | SetAt i _ => (i < 2 ^ 29)%Z
         | _ => True end) /\
        match a_step a o with Some (_, b) => (Z.of_nat (sz b) < 2 ^ 29)%Z /\ l_safe b t | None => True end
    end.
End Spec.
Arguments Push {A}. Arguments Pop {A}. Arguments Unshift {A}. Arguments Shift {A}. Arguments SetAt {A}. Arguments GetAt {A}. Arguments RemoveAt {A}.
Arguments RNone {A}. Arguments RErr {A}. Arguments RVal {A}. Arguments contents {A}.
