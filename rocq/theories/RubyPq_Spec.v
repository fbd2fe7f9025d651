(* Priority queues as their documentation has them: multisets with a capacity and an order. *)
From Verif Require Import Util PQueue_Model PQueue_Spec RubyPq_Model.
From Coq Require Import Sorting.Permutation.
Open Scope nat_scope.

Section SPEC.
  Variables A P : Type.
  (* whether an element is below another, by the order of a block, or by < *)
  Variable lt : option P -> A -> A -> bool.
  Record mset := mkM { m_capa : nat; m_by : option P; m_elems : list A }.
  (* a new queue: 32 elements if no number is given; the block, or else the option, orders it *)
  Definition asked (a : arg P) (more : bool) (block : option P) : ret A + mset :=
    match a, more with
    | Nothing, _ => inr (mkM 32 block [])
    | Another, _ => inl ArgError
    | Capacity k, more => if (k <? 0)%Z then inl IndexError else if more then inl ArgError else inr (mkM (Z.to_nat k) block [])
    | Options k l l', more =>
        let n := match k with Some n => n | None => 32%Z end in
        if (n <? 0)%Z then inl IndexError else if more then inl ArgError
        else inr (mkM (Z.to_nat n) (match block with Some b => Some b | None => match l' with Some p => Some p | None => l end end) [])
    end.
  Definition now (m : mset) (l : list A) : mset := mkM (m_capa m) (m_by m) l.
  Inductive may (s : list mset) : call A P -> ret A -> list mset -> Prop :=
  | M_error a more b e : asked a more b = inl e -> may s (New a more b) e s
  | M_new a more b m : asked a more b = inr m -> may s (New a more b) (Queue (length s)) (s ++ [m])
  | M_clone i m : nth_error s i = Some m -> may s (Clone i) (Queue (length s)) (s ++ [m])
  | M_insert i m e k l : nth_error s i = Some m -> q_step A (lt (m_by m)) (m_capa m) (m_elems m) (QInsert e) (QIns k) l -> may s (Insert i e) Self (upd s i (now m l))
  | M_pop i m x l : nth_error s i = Some m -> q_step A (lt (m_by m)) (m_capa m) (m_elems m) QPop (QElem x) l -> may s (Pop i) (Elem x) (upd s i (now m l))
  | M_top i m x : nth_error s i = Some m -> q_step A (lt (m_by m)) (m_capa m) (m_elems m) QTop (QElem x) (m_elems m) -> may s (Top i) (Elem x) s
  | M_adjust i m x l f : nth_error s i = Some m -> Permutation (m_elems m) (x :: l) -> least A (lt (m_by m)) x (m_elems m) -> may s (Adjust i f) Self (upd s i (now m (f x :: l)))
  | M_adjust_none i m f : nth_error s i = Some m -> m_elems m = [] -> may s (Adjust i f) Self s
  | M_size i m : nth_error s i = Some m -> may s (Size i) (Number (length (m_elems m))) s
  | M_capa i m : nth_error s i = Some m -> may s (Capa i) (Number (m_capa m)) s
  | M_clear i m : nth_error s i = Some m -> may s (Clear i) Self (upd s i (now m []))
  | M_collect i m : nth_error s i = Some m -> may s (Collect i) Self s.
  Inductive mays : list mset -> list (call A P) -> list (ret A) -> list mset -> Prop :=
  | Ms_nil s : mays s [] [] s
  | Ms_cons s o r s1 os rs s2 : may s o r s1 -> mays s1 os rs s2 -> mays s (o :: os) (r :: rs) s2.

  (* queues are asked for that were made; n: how many there are *)
  Fixpoint known (n : nat) (os : list (call A P)) : Prop :=
    match os with
    | [] => True
    | New a more b :: l => known (match asked a more b with inl _ => n | inr _ => S n end) l
    | Clone i :: l => i < n /\ known (S n) l
    | Insert i _ :: l | Adjust i _ :: l | Top i :: l | Pop i :: l | Size i :: l | Capa i :: l | Clear i :: l | Collect i :: l => i < n /\ known n l
    end.
  (* an order of its own is given by :less_than, or by a block together with an argument *)
  Definition heard (o : call A P) : Prop := match o with New Nothing _ (Some _) => False | New (Options _ _ (Some _)) _ _ => False | _ => True end.
  Definition collects (o : call A P) : Prop := match o with Collect _ => True | _ => False end.
  (* no queue has an order of its own *)
  Definition plain (o : call A P) : Prop := match o with New (Options _ (Some _) _) _ _ => False | New _ _ (Some _) => False | _ => True end.
  (* all elements ever put in have a property *)
  Definition puts (Q : A -> Prop) (o : call A P) : Prop := match o with Insert _ e => Q e | Adjust _ f => forall x, Q x -> Q (f x) | _ => True end.
  Definition gives (Q : A -> Prop) (r : ret A) : Prop := match r with Elem (Some x) => Q x | _ => True end.
End SPEC.
Arguments mkM {A P}. Arguments m_capa {A P}. Arguments m_by {A P}. Arguments m_elems {A P}. Arguments now {A P}.
