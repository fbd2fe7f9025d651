(* Specification of a hash table: an association list without equal keys. *)
From Verif Require Import Util Hash_Model.
Open Scope nat_scope.

Section Spec.
  Variables K V : Type.
  Variable eqb same : K -> K -> bool.
  Definition amap := list (K * V).
  Definition m_find (k : K) (m : amap) : option (K * V) := find (fun e => eqb (fst e) k) m.
  Definition m_set (k : K) (v : V) (m : amap) : amap :=
    match m_find k m with
    | Some _ => map (fun e => if eqb (fst e) k then (k, v) else e) m
    | None => m ++ [(k, v)]
    end.
  Definition m_del (k : K) (m : amap) : amap := filter (fun e => negb (eqb (fst e) k)) m.
  Definition m_status (k : K) (m : amap) : status :=
    match m_find k m with Some (k', _) => if same k' k then KeySame else KeyEqual | None => DoesNotExist end.

  Inductive hop := HSet (k : K) (v : V) | HSetSafe (k : K) (v : V) | HGet (k : K) | HDel (k : K) | HRem (k : K)
                 | HHas (k : K) | HClear | HSize.
  Inductive hres := RStatus (s : status) | RBool (b : bool) | RVal (v : option V) | RSize (n : nat) | RUnit.
  Definition m_step (m : amap) (o : hop) : hres * amap :=
    match o with
    | HSet k v => (RStatus (m_status k m), m_set k v m)
    | HSetSafe k v => match m_find k m with Some _ => (RBool false, m) | None => (RBool true, m_set k v m) end
    | HGet k => (RVal (option_map snd (m_find k m)), m)
    | HDel k => (RBool (match m_find k m with Some _ => true | None => false end), m_del k m)
    | HRem k => (RVal (option_map snd (m_find k m)), m_del k m)
    | HHas k => (RStatus (m_status k m), m)
    | HClear => (RUnit, [])
    | HSize => (RSize (length m), m)
    end.
  Fixpoint m_run (m : amap) (ops : list hop) : list hres * amap :=
    match ops with
    | [] => ([], m)
    | o :: t => let '(r, m1) := m_step m o in let '(rs, m2) := m_run m1 t in (r :: rs, m2)
    end.

  (* the model under the same operations; None = endless loop or access outside the table *)
  Variable hash : K -> Z.
  Variable by_ptr : bool.
  Notation ht := (hasht K V).
  Definition h_step (h : ht) (o : hop) : option (hres * ht) :=
    match o with
    | HSet k v => do r <- h_set K V hash eqb same by_ptr h k v; Some (RStatus (fst r), snd r)
    | HSetSafe k v => do r <- h_set_safe K V hash eqb same by_ptr h k v; Some (RBool (fst r), snd r)
    | HGet k => do r <- h_get K V hash eqb same by_ptr h k; Some (RVal (fst r), snd r)
    | HDel k => do r <- h_del K V hash eqb same by_ptr h k; Some (RBool (fst r), snd r)
    | HRem k => do r <- h_rem K V hash eqb same by_ptr h k; Some (RVal (fst r), snd r)
    | HHas k => do r <- h_has_key K V hash eqb same by_ptr h k; Some (RStatus (fst r), snd r)
    | HClear => Some (RUnit, h_clear K V h)
    | HSize => Some (RSize (h_size h), h)
    end.
  Fixpoint h_run (h : ht) (ops : list hop) : option (list hres * ht) :=
    match ops with
    | [] => Some ([], h)
    | o :: t => do r <- h_step h o; do q <- h_run (snd r) t; Some (fst r :: fst q, snd q)
    end.
End Spec.
Arguments HSet {K V}. Arguments HSetSafe {K V}. Arguments HGet {K V}. Arguments HDel {K V}.
Arguments HRem {K V}. Arguments HHas {K V}. Arguments HClear {K V}. Arguments HSize {K V}.
Arguments RStatus {V}. Arguments RBool {V}. Arguments RVal {V}. Arguments RSize {V}. Arguments RUnit {V}.

(* What a table may assume of its hash and equality functions. *)
Record key_ok {K : Type} (hash : K -> Z) (eqb same : K -> K -> bool) (by_ptr : bool) : Prop := {
  ko_range : forall k, (0 <= hash k < 2 ^ 64)%Z;
  ko_refl : forall k, eqb k k = true;
  ko_sym : forall a b, eqb a b = eqb b a;
  ko_trans : forall a b c, eqb a b = true -> eqb b c = true -> eqb a c = true;
  ko_hash : forall a b, eqb a b = true -> hash a = hash b;
  ko_same : forall a b, same a b = true -> eqb a b = true;
  (* tables keyed by integers or pointers: the key is its hash *)
  ko_ptr : by_ptr = true -> forall a b, hash a = hash b -> eqb a b = true }.

(* The value of a key read off the history alone, most recent operation first. *)
Fixpoint last_val {K V : Type} (eqb : K -> K -> bool) (k : K) (history : list (hop K V)) : option V :=
  match history with
  | [] => None
  | HSet k' v :: t => if eqb k' k then Some v else last_val eqb k t
  | HSetSafe k' v :: t =>
      match last_val eqb k t with
      | Some v0 => Some v0
      | None => if eqb k' k then Some v else None
      end
  | HDel k' :: t | HRem k' :: t => if eqb k' k then None else last_val eqb k t
  | HClear :: _ => None
  | _ :: t => last_val eqb k t
  end.
