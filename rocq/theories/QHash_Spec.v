(* What C48 says: the parts of a query that decide whether its equality is defined and faithful *)
From Verif Require Import Util Strcmp QHash_Model.
Open Scope Z_scope.

(* P holds of the boost, the data and the number of sub-queries of a query and of all its sub-queries *)
Fixpoint every (P : Z -> kind -> nat -> Prop) (q : qry) : Prop :=
  let (b, k, subs) := q in P b k (length subs) /\ (fix go (l : list (Z * qry)) := match l with [] => True | c :: l' => every P (snd c) /\ go l' end) subs.
(* no float that is hashed is a zero *)
Definition no_zero (b : Z) (k : kind) (n : nat) : Prop :=
  match k with KMulti _ heap => Forall (fun c : list Z * Z => zerof (snd c) = false) heap | KFuzzy _ _ ms _ _ => zerof ms = false | _ => True end.
(* no float is NaN, and the query has an eq function *)
Definition comparable (b : Z) (k : kind) (n : nat) : Prop :=
  nan b = false /\
  match k with KMulti _ heap => Forall (fun c : list Z * Z => nan (snd c) = false) heap | KFuzzy _ _ ms _ _ => nan ms = false | KFiltered => False | _ => True end.
(* neither a FilteredQuery nor a span query with clauses; only boolean and constant score queries have sub-queries *)
Definition simple (b : Z) (k : kind) (n : nat) : Prop := match k with KFiltered | KSpanFirst _ _ | KSpanOr _ | KSpanNot _ | KSpanNear _ _ _ => False | KBool _ _ | KConst _ => True | _ => n = 0%nat end.
(* the comparison of addresses: equal addresses have equal contents *)
Definition sound (same fsame : qry -> qry -> bool) : Prop :=
  (forall a b, same a b = true -> a = b) /\ (forall x k s x' k' s', fsame (Qn x k s) (Qn x' k' s') = true -> k = k' /\ s = s').

(* What C65 says: a query without the parts that the comparison does not look at, the limits on the number of terms and clauses, the type of a range filter
   and the boosts of the clauses of span queries *)
Definition erase_kind (k : kind) : kind :=
  match k with
  | KBool cd _ => KBool cd 0 | KConst (FRange _ r) => KConst (FRange false r) | KWild f p _ => KWild f p 0 | KFuzzy f t ms pl _ => KFuzzy f t ms pl 0
  | KPrefix f p _ => KPrefix f p 0 | KSpanPrefix f p _ => KSpanPrefix f p 0 | _ => k
  end.
Definition norm0 (f : Z) : Z := if zerof f then 0 else f.
Definition is_raw (k : kind) : bool := match k with KBool _ _ | KConst _ => false | _ => true end.
Fixpoint erase (in_span : bool) (q : qry) : qry :=
  let (b, k, subs) := q in
  Qn (if in_span then 0 else norm0 b) (erase_kind k) (map (fun c : Z * qry => (match k with KBool _ _ => fst c | _ => 0 end, erase (is_raw k) (snd c))) subs).
