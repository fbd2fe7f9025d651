(* Which positions a span query marks in a field. *)
From Coq Require Import Sorting.Sorted.
From Verif Require Import Util Strcmp Span_Model Span_Spec Collect_Model Collect_Spec CollectSpan_Model.
Open Scope Z_scope.
(* positions are numbers of tokens *)
Definition pos_ok (v : tv) : Prop := forall t p, occurs v t p -> 0 <= p < INT_MAX.
(* the spans of a query in the field, as document 0 *)
Fixpoint tspan (v : tv) (q : tsq) (x : span) : Prop :=
  match q with
  | GTerm t => s_doc x = 0 /\ occurs v t (s_st x) /\ s_en x = s_st x + 1
  | GFirst e q => tspan v q x /\ s_en x <= e
  | GOr qs => (fix go (l : list tsq) : Prop := match l with [] => False | q :: t => tspan v q x \/ go t end) qs
  | GNear o slop qs => exists l, (fix go (qs : list tsq) (l : list span) : Prop := match qs, l with [], [] => True | q :: qs', y :: l' => tspan v q y /\ go qs' l' | _, _ => False end) qs l /\ window o slop l x
  | GNot a b => tspan v a x /\ forall y, tspan v b y -> ~ overlap x y
  end.
(* the terms a query asks for, which those of the excluded side are not *)
Inductive sought : tsq -> str -> Prop :=
| So_term t : sought (GTerm t) t
| So_first e q t : sought q t -> sought (GFirst e q) t
| So_or qs q t : In q qs -> sought q t -> sought (GOr qs) t
| So_near o slop qs q t : In q qs -> sought q t -> sought (GNear o slop qs) t
| So_not a b t : sought a t -> sought (GNot a b) t.
(* a position of one of the terms, within a span *)
Definition span_marks (v : tv) (q : tsq) (p : Z) : Prop := exists t x, sought q t /\ occurs v t p /\ tspan v q x /\ s_st x <= p < s_en x.
(* the query without its terms *)
Fixpoint shape (q : tsq) : squery :=
  match q with
  | GTerm _ => QTerm []
  | GFirst e q => QFirst e (shape q)
  | GOr qs => QOr (map shape qs)
  | GNear o slop qs => QNear o slop (map shape qs)
  | GNot a b => QNot (shape a) (shape b)
  end.
(* in the clauses of a SpanNear behind the first (b) all terms occur, and there is no SpanNot *)
Fixpoint settled (v : tv) (b : bool) (q : tsq) : Prop :=
  match q with
  | GTerm t => b = true -> exists p, occurs v t p
  | GFirst _ q => settled v b q
  | GOr qs => (fix go (l : list tsq) : Prop := match l with [] => True | q :: t => settled v b q /\ go t end) qs
  | GNear _ _ qs => match qs with [] => False | q :: qs => settled v b q /\ (fix go (l : list tsq) : Prop := match l with [] => True | q :: t => settled v true q /\ go t end) qs end
  | GNot x y => b = false /\ settled v b x /\ settled v false y
  end.
