(* What an exact phrase matches. *)
From Coq Require Import Sorting.Permutation Sorting.Sorted.
From Verif Require Import Util Phrase_Model.
Open Scope Z_scope.
(* a phrase: for every position its offset and the documents of its term(s) with the positions in them *)
Notation phrase := (list (Z * list (Z * list Z))).
Definition phrase_ok (ph : phrase) : Prop :=
  ph <> [] /\ Forall (fun t : Z * list (Z * list Z) => StronglySorted Z.lt (map fst (snd t)) /\ Forall (fun e : Z * list Z => 0 <= fst e < INT_MAX /\ snd e <> [] /\ StronglySorted Z.le (snd e)) (snd t)) ph.
(* positions are not repeated in a document *)
Definition no_repeats (ph : phrase) : Prop := Forall (fun t : Z * list (Z * list Z) => Forall (fun e : Z * list Z => StronglySorted Z.lt (snd e)) (snd t)) ph.
Definition occurs_at (ph : phrase) (d b : Z) : Prop := Forall (fun t : Z * list (Z * list Z) => exists ps, In (d, ps) (snd t) /\ In (b + fst t) ps) ph.
Definition phrase_in (ph : phrase) (d : Z) : Prop := exists b, occurs_at ph d b.
(* n is the number of base positions *)
Definition occurrences (ph : phrase) (d n : Z) : Prop := exists bs, NoDup bs /\ (forall b, In b bs <-> occurs_at ph d b) /\ Z.of_nat (length bs) = n.
(* every position has an occurrence so that how far they are moved against each other is at most slop *)
Definition apart (slop : Z) (xs : list Z) : Prop := ForallOrdPairs (fun a b => Z.abs (a - b) <= slop) xs.
Definition window_in (slop : Z) (ph : phrase) (d : Z) : Prop := exists xs, Forall2 (fun (t : Z * list (Z * list Z)) x => exists ps, In (d, ps) (snd t) /\ In (x + fst t) ps) ph xs /\ apart slop xs.
(* the phrase has an offset that is not after the first place of a document, as the first one a query is given *)
Definition begins (ph : phrase) : Prop := Exists (fun t : Z * list (Z * list Z) => Forall (fun e : Z * list Z => Forall (fun x => fst t <= x) (snd e)) (snd t)) ph.
(* a correct qsort *)
Definition sorts (qsort : (pp -> pp -> Z) -> list pp -> list pp) : Prop :=
  forall cmp, (forall a b, cmp a b <= 0 \/ cmp b a <= 0) -> (forall a b c, cmp a b <= 0 -> cmp b c <= 0 -> cmp a c <= 0) -> forall l, Permutation l (qsort cmp l) /\ StronglySorted (fun a b => cmp a b <= 0) (qsort cmp l).
(* the states reached by calls of next and of skip_to beyond the current document *)
Section REACH.
  Variable run : nat -> option Z -> phsc -> option (bool * phsc).
  Variable s0 : phsc.
  Definition beyond (cur op : option Z) : Prop := match op, cur with None, _ => True | Some d, None => 0 <= d | Some d, Some c => c < d end.
  Definition gives (op : option Z) (s : phsc) (r : bool * phsc) : Prop := exists n, forall f, (n <= f)%nat -> run f op s = Some r.
  Inductive reached : phsc -> option Z -> Prop :=
  | R_new : reached s0 None
  | R_step s cur op s' : reached s cur -> beyond cur op -> gives op s (true, s') -> reached s' (Some (h_doc s')).
  (* the documents a call may stop at *)
  Definition after (cur op : option Z) (d : Z) : Prop := match op, cur with Some t, _ => t <= d | None, Some c => c < d | None, None => True end.
End REACH.
