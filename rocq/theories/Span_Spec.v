(* Which spans a span query matches. *)
From Coq Require Import Sorting.Sorted.
From Verif Require Import Util Span_Model.
Open Scope Z_scope.
Definition len (x : span) : Z := s_en x - s_st x.
Definition lengths (l : list span) : Z := fold_right (fun x n => len x + n) 0 l.
Definition overlap (x y : span) : Prop := s_doc x = s_doc y /\ s_st y < s_en x /\ s_st x < s_en y.
(* the chosen occurrences are in the order of the clauses *)
Fixpoint in_turn (l : list span) : Prop :=
  match l with
  | x :: (y :: _) as t => (s_st x < s_st y \/ s_st x = s_st y /\ s_en x <= s_en y) /\ in_turn t
  | _ => True
  end.
(* they are between st and en, with at most slop positions not covered *)
Definition window (in_order : bool) (slop : Z) (l : list span) (x : span) : Prop :=
  Forall (fun y => s_doc y = s_doc x /\ s_st x <= s_st y /\ s_en y <= s_en x) l /\ s_en x - s_st x - lengths l <= slop /\ (in_order = true -> in_turn l).
Fixpoint spans_in (q : squery) (x : span) : Prop :=
  match q with
  | QTerm l => exists ps, In (s_doc x, ps) l /\ In (s_st x) ps /\ s_en x = s_st x + 1
  | QFirst e q => spans_in q x /\ s_en x <= e
  | QOr qs => (fix go (l : list squery) : Prop := match l with [] => False | q :: t => spans_in q x \/ go t end) qs
  | QNear o slop qs => exists l, (fix go (qs : list squery) (l : list span) : Prop := match qs, l with [], [] => True | q :: qs', y :: l' => spans_in q y /\ go qs' l' | _, _ => False end) qs l /\ window o slop l x
  | QNot a b => spans_in a x /\ forall y, spans_in b y -> ~ overlap x y
  end.
(* how often x is a span of q: once for each occurrence, and for each clause of a SpanOr *)
Fixpoint times (q : squery) (x : span) (n : nat) : Prop :=
  match q with
  | QTerm l => n = if s_en x =? s_st x + 1 then count_occ Z.eq_dec (flat_map (fun d : Z * list Z => if fst d =? s_doc x then snd d else []) l) (s_st x) else 0%nat
  | QFirst e q => s_en x <= e /\ times q x n \/ e < s_en x /\ n = 0%nat
  | QOr qs => (fix go (l : list squery) (n : nat) : Prop := match l with [] => n = 0%nat | q :: t => exists i j, times q x i /\ go t j /\ n = (i + j)%nat end) qs n
  | QNear _ _ _ => False
  | QNot a b => (forall y, spans_in b y -> ~ overlap x y) /\ times a x n \/ (exists y, spans_in b y /\ overlap x y) /\ n = 0%nat
  end.
Definition span_le (x y : span) : Prop := s_doc x < s_doc y \/ s_doc x = s_doc y /\ (s_st x < s_st y \/ s_st x = s_st y /\ s_en x <= s_en y).
(* postings: increasing documents, each with its positions *)
Definition postings_ok (l : list (Z * list Z)) : Prop :=
  StronglySorted Z.lt (map fst l) /\
  Forall (fun d : Z * list Z => 0 <= fst d < INT_MAX /\ snd d <> [] /\ StronglySorted Z.le (snd d) /\ Forall (fun p => 0 <= p < INT_MAX) (snd d)) l.
Fixpoint terms_ok (q : squery) : Prop :=
  match q with
  | QTerm l => postings_ok l
  | QFirst _ q => terms_ok q
  | QOr qs | QNear _ _ qs => (fix go (l : list squery) : Prop := match l with [] => True | q :: t => terms_ok q /\ go t end) qs
  | QNot a b => terms_ok a /\ terms_ok b
  end.
(* the document can be asked for before the first move: no SpanOr of several clauses *)
Fixpoint readable (q : squery) : bool :=
  match q with
  | QTerm _ => true
  | QFirst _ q => readable q
  | QOr qs => match qs with [q] => readable q | _ => false end
  | QNear _ _ _ => false
  | QNot a b => readable a
  end.
(* no SpanNear inside; what a SpanNot excludes is asked to skip, and has to be readable if the SpanNot is asked to skip itself *)
Fixpoint usable (skip : bool) (q : squery) : bool :=
  match q with
  | QTerm _ => true
  | QFirst _ q => usable skip q
  | QOr qs => forallb (usable skip) qs
  | QNear _ _ _ => false
  | QNot a b => usable skip a && usable true b && (negb skip || readable b)
  end.
(* what the scorer can walk through by next: the above, or a SpanNear over such clauses that need not be moved before they are read *)
Definition searchable (q : squery) : bool :=
  match q with
  | QNear _ _ (q0 :: q1 :: qs) => usable true q0 && forallb (fun q => usable true q && readable q) (q1 :: qs)
  | _ => usable false q
  end.
