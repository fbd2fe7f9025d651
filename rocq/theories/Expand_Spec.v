(* Glob patterns, and what expanding queries select. *)
From Coq Require Import Sorting.Permutation Sorting.Sorted.
From Verif Require Import Util Strcmp Dict_Model Dict_Spec PQueue_Model Multi_Model Mte_Model Mte_Spec Expand_Model.
Open Scope Z_scope.

(* the texts of a pattern: * is any string, ? any byte, anything else is itself *)
Inductive glob : list Z -> list Z -> Prop :=
| G_end : glob [] []
| G_any : forall c p t, glob p t -> glob (WILD_CHAR :: p) (c :: t)
| G_star : forall s p t, glob p t -> glob (WILD_STRING :: p) (s ++ t)
| G_lit : forall c p t, c <> WILD_CHAR -> c <> WILD_STRING -> glob p t -> glob (c :: p) (c :: t).

(* an index of one or several segments, its files and the terms of a field *)
Inductive idx := IOne (x : sgm) | IMany (mp : option (list (list Z))) (xs : list sgm).
Definition idx_open (i : idx) (r : rdr) : Prop :=
  match i, r with
  | IOne x, ROne s => sgm_ok x /\ opened x s
  | IMany mp xs, RMany mp' srcs => mp' = mp /\ Forall sgm_ok xs /\ Forall2 opened xs srcs
  | _, _ => False end.
Definition idx_field (i : idx) (f : Z) : Prop := match i with IOne _ => True | IMany mp xs => field_in mp (length xs) f end.
Definition idx_terms (i : idx) (f : Z) : list (list Z) := match i with IOne x => map fst (terms_of (g_fs x) f) | IMany mp xs => union (lists mp f O xs) end.
(* on several segments a seek for the empty term is only sound if no segment has it: see C22_from_empty_refuted *)
Definition from_ok (i : idx) (f : Z) (t : list Z) : Prop := match i with IOne _ => True | IMany _ _ => t <> [] \/ ~ In [] (idx_terms i f) end.

(* a query selects the first max terms, in order, of those that satisfy P; the empty term is never one of them *)
Definition terms_in_query (q : mtq) : list (list Z) := map fst (concat (map (fun c => match c with Some x => [x] | None => [] end) (firstn (pq_size (b_terms q)) (skipn 1 (pq_heap (b_terms q)))))).
Definition selects (q : rq) (max : nat) (M : list (list Z)) (P : list Z -> Prop) : Prop :=
  match q with
  | QTermQ _ _ => False
  | QMultiQ m => exists sel, StronglySorted slt sel /\ (forall t, In t sel <-> In t M /\ t <> [] /\ P t) /\ Permutation (terms_in_query m) (firstn max sel)
  end.
Definition boost_of (q : rq) : Z := match q with QTermQ _ b => b | QMultiQ m => b_boost m end.
