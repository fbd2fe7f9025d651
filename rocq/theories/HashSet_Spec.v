(* Specification of a hash set: a list of members in order of insertion. *)
From Verif Require Import Util Hash_Model HashSet_Model.
Open Scope nat_scope.

Section Spec.
  Variable K : Type.
  Variables eqb same : K -> K -> bool.
  Definition l_find (e : K) (l : list K) : option K := find (fun x => eqb x e) l.
  Definition l_status (e : K) (l : list K) : status :=
    match l_find e l with Some x => if same x e then KeySame else KeyEqual | None => DoesNotExist end.
  Definition l_add (e : K) (l : list K) : list K := match l_find e l with Some _ => l | None => l ++ [e] end.
  Definition l_del (e : K) (l : list K) : list K := filter (fun x => negb (eqb x e)) l.

  Inductive sop := SAdd (e : K) | SAddSafe (e : K) | SDel (e : K) | SRem (e : K) | SExists (e : K) | SOrig (e : K)
                 | SClear | SSize | SElems | SMerge (l : list K).
  Inductive sres := SStatus (s : status) | SBool (b : bool) | SElem (e : option K) | SNum (n : nat) | SList (l : list K) | SUnit.
  (* SMerge l: merge with the set built by adding the elements of l to an empty one *)
  Definition l_step (l : list K) (o : sop) : sres * list K :=
    match o with
    | SAdd e => (SStatus (l_status e l), l_add e l)
    | SAddSafe e => (SBool (match l_status e l with KeyEqual => false | _ => true end), l_add e l)
    | SDel e => (SBool (match l_find e l with Some _ => true | None => false end), l_del e l)
    | SRem e => (SElem (l_find e l), l_del e l)
    | SExists e => (SStatus (l_status e l), l)
    | SOrig e => (SElem (l_find e l), l)
    | SClear => (SUnit, [])
    | SSize => (SNum (length l), l)
    | SElems => (SList l, l)
    | SMerge l2 => (SUnit, fold_left (fun l e => l_add e l) (fold_left (fun l e => l_add e l) l2 []) l)
    end.
  Fixpoint l_run (l : list K) (ops : list sop) : list sres * list K :=
    match ops with
    | [] => ([], l)
    | o :: t => let '(r, l1) := l_step l o in let '(rs, l2) := l_run l1 t in (r :: rs, l2)
    end.

  Variable hash : K -> Z.
  Variable by_ptr : bool.
  Notation hs := (hset K).
  Definition s_step (s : hs) (o : sop) : option (sres * hs) :=
    match o with
    | SAdd e => do r <- hs_add K hash eqb same by_ptr s e; Some (SStatus (fst r), snd r)
    | SAddSafe e => do r <- hs_add_safe K hash eqb same by_ptr s e; Some (SBool (fst r), snd r)
    | SDel e => do r <- hs_del K hash eqb same by_ptr s e; Some (SBool (fst r), snd r)
    | SRem e => do r <- hs_rem K hash eqb same by_ptr s e; Some (SElem (fst r), snd r)
    | SExists e => do r <- hs_exists K hash eqb same by_ptr s e; Some (SStatus (fst r), snd r)
    | SOrig e => do r <- hs_orig K hash eqb same by_ptr s e; Some (SElem (fst r), snd r)
    | SClear => do s1 <- hs_clear K s; Some (SUnit, s1)
    | SSize => Some (SNum (hs_size s), s)
    | SElems => do l <- hs_elems K s; Some (SList l, s)
    | SMerge l2 => do o <- add_all K hash eqb same by_ptr (hs_new K) l2;
                   do s1 <- hs_merge K hash eqb same by_ptr s o; Some (SUnit, s1)
    end.
  Fixpoint s_run (s : hs) (ops : list sop) : option (list sres * hs) :=
    match ops with
    | [] => Some ([], s)
    | o :: t => do r <- s_step s o; do q <- s_run (snd r) t; Some (fst r :: fst q, snd q)
    end.
End Spec.
Arguments SAdd {K}. Arguments SAddSafe {K}. Arguments SDel {K}. Arguments SRem {K}. Arguments SExists {K}.
Arguments SOrig {K}. Arguments SClear {K}. Arguments SSize {K}. Arguments SElems {K}. Arguments SMerge {K}.
Arguments SStatus {K}. Arguments SBool {K}. Arguments SElem {K}. Arguments SNum {K}. Arguments SList {K}. Arguments SUnit {K}.
