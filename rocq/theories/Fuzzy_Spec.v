(* Edit distance. *)
From Coq Require Import Sorting.Permutation.
From Verif Require Import Util PQueue_Model Expand_Model Fuzzy_Model.
Open Scope Z_scope.
(* one byte inserted, removed or replaced *)
Inductive edit1 : list Z -> list Z -> Prop :=
| E_insert u x v : edit1 (u ++ v) (u ++ x :: v)
| E_remove u x v : edit1 (u ++ x :: v) (u ++ v)
| E_replace u x y v : edit1 (u ++ x :: v) (u ++ y :: v).
Inductive edits : nat -> list Z -> list Z -> Prop :=
| E_none a : edits 0 a a
| E_more n a b c : edits n a b -> edit1 b c -> edits (S n) a c.
(* the Levenshtein distance *)
Definition distance (a b : list Z) (k : nat) : Prop := edits k a b /\ forall j, edits j a b -> (k <= j)%nat.
(* the terms of a query with their boosts *)
Definition boosts_in_query (q : mtq) : list (list Z * Z) := concat (map (fun c => match c with Some x => [x] | None => [] end) (firstn (pq_size (b_terms q)) (skipn 1 (pq_heap (b_terms q))))).
(* what a score says of a candidate: its distance, or that it is beyond the permitted one; calc l is the distance permitted for the length l *)
Definition verdict (calc : Z -> Z) (term cand : list Z) (s : fscore) : Prop :=
  match s with
  | Sim d l => distance term cand (Z.to_nat d) /\ 0 <= d /\ l = Z.min (Z.of_nat (length term)) (Z.of_nat (length cand))
  | Zero => (length term = 0 \/ length cand = 0)%nat \/ exists k, distance term cand k /\ calc (Z.min (Z.of_nat (length term)) (Z.of_nat (length cand))) < Z.of_nat k
  end.
(* what a query of at most max terms holds of the pairs done: those with the greatest boosts *)
Definition best (max : nat) (m done : list (list Z * Z)) : Prop := exists out, Permutation (m ++ out) done /\ (length m <= max)%nat /\ (out <> [] -> length m = max) /\ forall x y, In x m -> In y out -> snd y <= snd x.
