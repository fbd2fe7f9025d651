(* Specification of a priority queue: a multiset with a least element. *)
From Verif Require Import Util PQueue_Model.
From Coq Require Import Sorting.Permutation.
Open Scope nat_scope.

Section Spec.
  Variable A : Type.
  Variable lt : A -> A -> bool.
  (* total preorder: le a b is "not b < a" *)
  Definition le (a b : A) : Prop := lt b a = false.
  Definition preorder : Prop := (forall a b, le a b \/ le b a) /\ (forall a b c, le a b -> le b c -> le a c).
  Definition least (x : A) (m : list A) : Prop := In x m /\ forall y, In y m -> le x y.

  Inductive qop := QPush (e : A) | QInsert (e : A) | QReplace (e : A) | QPop | QTop | QClear.
  Inductive qres := QNone | QIns (i : ins) | QElem (x : option A).
  (* allowed transitions of the multiset m (a list up to permutation) in a queue of capacity capa *)
  Inductive q_step (capa : nat) (m : list A) : qop -> qres -> list A -> Prop :=
  | Q_push e : q_step capa m (QPush e) QNone (e :: m)
  | Q_added e : length m < capa -> q_step capa m (QInsert e) (QIns Added) (e :: m)
  | Q_inserted e x m' : capa <= length m -> Permutation m (x :: m') -> least x m -> lt x e = true ->
      q_step capa m (QInsert e) (QIns Inserted) (e :: m')
  | Q_dropped e : capa <= length m -> (forall y, In y m -> le e y) -> q_step capa m (QInsert e) (QIns Dropped) m
  | Q_replace e x m' : Permutation m (x :: m') -> least x m -> q_step capa m (QReplace e) QNone (e :: m')
  | Q_pop x m' : Permutation m (x :: m') -> least x m -> q_step capa m QPop (QElem (Some x)) m'
  | Q_pop_empty : m = [] -> q_step capa m QPop (QElem None) []
  | Q_top x : least x m -> q_step capa m QTop (QElem (Some x)) m
  | Q_top_empty : m = [] -> q_step capa m QTop (QElem None) []
  | Q_clear : q_step capa m QClear QNone [].
  Inductive q_steps (capa : nat) : list A -> list qop -> list qres -> list A -> Prop :=
  | Q_nil m : q_steps capa m [] [] m
  | Q_cons m o r m1 os rs m2 : q_step capa m o r m1 -> q_steps capa m1 os rs m2 -> q_steps capa m (o :: os) (r :: rs) m2.
  (* QReplace is only allowed on a queue which is not empty *)
  Fixpoint legal (capa n : nat) (ops : list qop) : Prop :=
    match ops with
    | [] => True
    | QPush _ :: t => legal capa (n + 1) t
    | QInsert _ :: t => legal capa (if n <? capa then n + 1 else n) t
    | QReplace _ :: t => 0 < n /\ legal capa n t
    | QPop :: t => legal capa (n - 1) t
    | QTop :: t => legal capa n t
    | QClear :: t => legal capa 0 t
    end.

  (* the model under the same operations *)
  Definition p_step (q : pq A) (o : qop) : option (qres * pq A) :=
    match o with
    | QPush e => do q' <- pq_push A lt q e; Some (QNone, q')
    | QInsert e => do r <- pq_insert A lt q e; Some (QIns (fst r), snd r)
    | QReplace e => do q' <- pq_replace_top A lt q e; Some (QNone, q')
    | QPop => do r <- pq_pop A lt q; Some (QElem (fst r), snd r)
    | QTop => do r <- pq_top A q; Some (QElem r, q)
    | QClear => Some (QNone, pq_clear A q)
    end.
  Fixpoint p_run (q : pq A) (ops : list qop) : option (list qres * pq A) :=
    match ops with
    | [] => Some ([], q)
    | o :: t => do r <- p_step q o; do s <- p_run (snd r) t; Some (fst r :: fst s, snd s)
    end.
  (* popping until the queue is empty *)
  Fixpoint drain (n : nat) (q : pq A) : option (list A) :=
    match n with
    | O => Some []
    | S n' => do r <- pq_pop A lt q;
              match fst r with None => Some [] | Some x => do t <- drain n' (snd r); Some (x :: t) end
    end.
  Fixpoint push_all (q : pq A) (l : list A) : option (pq A) :=
    match l with [] => Some q | e :: t => do q' <- pq_push A lt q e; push_all q' t end.
  Fixpoint insert_all (q : pq A) (l : list A) : option (pq A) :=
    match l with [] => Some q | e :: t => do r <- pq_insert A lt q e; insert_all (snd r) t end.
End Spec.
Arguments QPush {A}. Arguments QInsert {A}. Arguments QReplace {A}. Arguments QPop {A}. Arguments QTop {A}. Arguments QClear {A}.
Arguments QNone {A}. Arguments QIns {A}. Arguments QElem {A}.
