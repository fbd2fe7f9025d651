(* Which positions of a field a query marks. *)
From Coq Require Import Sorting.Sorted Sorting.Permutation.
From Verif Require Import Util Strcmp Collect_Model Ring.
From Verif Require Range_Model.
Open Scope Z_scope.
(* a term vector as it is stored: the terms in order, each with its positions *)
Definition tv_ok (v : tv) : Prop := StronglySorted slt (map fst (tv_terms v)) /\ Forall (fun t : str * list Z => snd t <> [] /\ up (snd t)) (tv_terms v).
Definition occurs (v : tv) (t : str) (p : Z) : Prop := exists ps, In (t, ps) (tv_terms v) /\ In p ps.
(* one part of a phrase, at the place b of the whole *)
Definition part_at (v : tv) (b : Z) (part : Z * list str) : Prop := exists t, In t (snd part) /\ occurs v t (b + fst part).
Definition least (l : list Z) (x : Z) : Prop := In x l /\ forall y, In y l -> x <= y.
Definition greatest (l : list Z) (x : Z) : Prop := In x l /\ forall y, In y l -> y <= x.
(* from the first part to the last *)
Definition exact_match (v : tv) (poss : list (Z * list str)) (r : Z * Z) : Prop :=
  exists b, Forall (part_at v b) poss /\ least (map (fun part => b + fst part) poss) (fst r) /\ greatest (map (fun part => b + fst part) poss) (snd r).
(* each part at a place of its own; the places are within slop of each other *)
Definition placed (v : tv) (poss : list (Z * list str)) (xs : list Z) : Prop := Forall2 (fun part x => part_at v x part) poss xs.
Definition close_by (slop : Z) (xs : list Z) : Prop := forall x y, In x xs -> In y xs -> y - x <= slop.
Definition ends_of (poss : list (Z * list str)) (xs : list Z) : list Z := map (fun px : (Z * list str) * Z => fst (fst px) + snd px) (combine poss xs).
Definition sloppy_match (v : tv) (slop : Z) (poss : list (Z * list str)) (xs : list Z) (r : Z * Z) : Prop :=
  placed v poss xs /\ close_by slop xs /\ least (ends_of poss xs) (fst r) /\ greatest (ends_of poss xs) (snd r).
Definition between (ys xs : list Z) : Prop := forall y, In y ys -> (exists x, In x xs /\ x <= y) /\ exists x, In x xs /\ y <= x.
(* a correct qsort with phrase_pos_cmp *)
Definition psorts (psort : list (Z * list str) -> list (Z * list str)) : Prop := forall l, Permutation l (psort l) /\ up (map fst (psort l)).
(* a part of which no occurrence is in front of the place of the whole *)
Definition begins (v : tv) (poss : list (Z * list str)) : Prop := exists part, In part poss /\ forall x, part_at v x part -> 0 <= x.
(* text in a range *)
Definition in_range (g : Range_Model.range) (t : str) : Prop :=
  (forall l, Range_Model.r_lower g = Some l -> if Range_Model.r_incl g then sle l t else slt l t) /\
  (forall u, Range_Model.r_upper g = Some u -> if Range_Model.r_incu g then sle t u else slt t u).
(* numbers *)
Section NUM.
  Variables (num : Type) (nle nlt : num -> num -> bool) (sscanf : str -> Range_Model.scanres num).
  Definition number (s : str) (x : num) : Prop := sscanf s = Range_Model.SOk num x (Z.of_nat (length s)).
  (* a bound which sscanf refuses, or of which it does not read all *)
  Definition no_number (s : option str) : Prop :=
    exists l, s = Some l /\ (sscanf l = Range_Model.SFail num \/ exists x k, sscanf l = Range_Model.SOk num x k /\ k <> Z.of_nat (length l)).
  Definition num_between (g : Range_Model.range) (x : num) : Prop :=
    (forall l n, Range_Model.r_lower g = Some l -> number l n -> (if Range_Model.r_incl g then nle n x else nlt n x) = true) /\
    (forall u n, Range_Model.r_upper g = Some u -> number u n -> (if Range_Model.r_incu g then nle x n else nlt x n) = true).
  (* no term that sscanf does not read has the length of what it read last, which may be a bound or another term *)
  Definition no_stale (v : tv) (g : Range_Model.range) : Prop :=
    forall t, In t (map fst (tv_terms v)) -> (exists x l, sscanf t = Range_Model.SOk num x l) \/
      forall s x l, sscanf s = Range_Model.SOk num x l -> In s (map fst (tv_terms v)) \/ Range_Model.r_lower g = Some s \/ Range_Model.r_upper g = Some s -> Z.of_nat (length t) <> l.
End NUM.

(* ---------- the positions a query marks; a position of the field *)
Definition held (v : tv) (p : Z) : Prop := exists t, occurs v t p.
Section MARKS.
  Variables (num : Type) (nle nlt : num -> num -> bool) (sscanf : str -> Range_Model.scanres num).
  Variable v : tv.
  Inductive marks : hq -> Z -> Prop :=
  | mk_term t p : occurs v t p -> marks (HTerm (tv_field v) t) p
  | mk_multi ts t p : In t ts -> occurs v t p -> marks (HMulti (tv_field v) ts) p
  | mk_range g t p : in_range g t -> occurs v t p -> marks (HRange (tv_field v) g) p
  | mk_typed g t x p : number num sscanf t x -> num_between num nle nlt sscanf g x -> occurs v t p -> marks (HTyped (tv_field v) g) p
  | mk_exact slop poss r p : slop <= 0 -> exact_match v poss r -> fst r <= p <= snd r -> marks (HPhrase (tv_field v) slop poss) p
  | mk_sloppy slop poss xs r p : 0 < slop -> sloppy_match v slop poss xs r -> fst r <= p <= snd r -> marks (HPhrase (tv_field v) slop poss) p
  | mk_bool cs c p : In (false, c) cs -> marks c p -> marks (HBool cs) p.
  (* what is asked of the queries *)
  Fixpoint hq_ok (q : hq) : Prop :=
    match q with
    | HTyped _ g => Forall (fun t => fst t <> []) (tv_terms v) /\ (forall l, Range_Model.r_lower g = Some l -> exists n, number num sscanf l n) /\ (forall u, Range_Model.r_upper g = Some u -> exists n, number num sscanf u n) /\ no_stale num sscanf v g
    | HPhrase _ slop poss => if 0 <? slop then (2 <= length poss)%nat /\ begins v poss else poss <> []
    | HBool cs => (fix go l := match l with [] => True | (_, c) :: r => hq_ok c /\ go r end) cs
    | _ => True
    end.
  Fixpoint no_sloppy (q : hq) : Prop :=
    match q with
    | HPhrase _ slop _ => slop <= 0
    | HBool cs => (fix go l := match l with [] => True | (_, c) :: r => no_sloppy c /\ go r end) cs
    | _ => True
    end.
End MARKS.
(* the offsets of a field: those of its positions are in the text and do not overlap *)
Definition text_ok (text : list Z) (offs : list (Z * Z)) (v : tv) : Prop :=
  (forall p, held v p -> 0 <= p < Z.of_nat (length offs)) /\
  (forall p o, held v (Z.of_nat p) -> nth_error offs p = Some o -> 0 <= fst o <= snd o /\ snd o <= Z.of_nat (length text)) /\
  (forall p q o r, held v (Z.of_nat p) -> held v (Z.of_nat q) -> (p < q)%nat -> nth_error offs p = Some o -> nth_error offs q = Some r -> snd o <= fst r).
