(* The strings meant, without blocks and sizes, and what they are promised for. *)
From Coq Require Import List ZArith Bool Arith.
From Verif Require Import Util Text_Model.
Import ListNotations.
Open Scope Z_scope.

(* a C string *)
Definition clean (s : str) : Prop := Forall (fun c => c <> 0) s.

(* numbers: up to seven digits, zeros at the end left out up to one digit behind the point *)
Fixpoint drop0 (s : str) : str :=
  match s with
  | [] => []
  | c :: s' => match drop0 s' with [] => if c =? 48 then [] else [c] | r => c :: r end
  end.
Definition strip (s : str) : str := match s with [] => [] | c :: s' => c :: drop0 s' end.
Definition number (x : num) : str :=
  match x with
  | Finite g e =>
      let t := match i_frac g with [] => e | _ => g end in
      (if i_neg t then [45] else []) ++ i_int t ++ [46] ++ strip (i_frac t) ++ i_exp t
  | _ => []
  end.
(* what printf gives *)
Definition digit (c : Z) : Prop := isdigit c = true.
Definition printed (t : image) : Prop :=
  i_int t <> [] /\ Forall digit (i_int t) /\ Forall digit (i_frac t) /\
  (i_exp t = [] \/ exists r, i_exp t = 101 :: r /\ clean r) /\ (length (text t) <= 15)%nat.
Definition finite (x : num) : Prop :=
  match x with
  | Finite g e => printed g /\ printed e /\ i_frac e <> []
  | _ => False
  end.
Definition finite_b (b : boost) : Prop := match b with None => True | Some x => finite x end.
Definition tail (b : boost) : str := match b with None => [] | Some x => 94 :: number x end.

Fixpoint join (sep : str) (l : list str) : str :=
  match l with
  | [] => []
  | [s] => s
  | s :: l' => s ++ sep ++ join sep l'
  end.
Definition named (df : option str) (f : str) : str := if same df f then [] else f ++ [58].

(* a phrase: the words of a place with | between them, & before a place taken already, <> for a place left free *)
Fixpoint places (prev : Z) (ps : list (Z * list str)) : str :=
  match ps with
  | [] => []
  | (p, ts) :: ps' =>
      (if p =? prev then [38] else 32 :: concat (repeat [60; 62; 32] (Z.to_nat (p - prev - 1)))) ++ join [124] ts ++ places p ps'
  end.
Definition phrase (ps : list (Z * list str)) : str :=
  match sort ps with
  | [] => []
  | (p, ts) :: ps' => join [124] ts ++ places p ps'
  end.
Definition slop_s (n : Z) : str := if n =? 0 then [] else 126 :: dec n.
Definition range_s (df : option str) (r : range) : str :=
  named df (r_field r) ++
  match r_lower r, r_upper r with
  | Some l, Some u => [if r_incl r then 91 else 123] ++ l ++ [32] ++ u ++ [if r_incu r then 93 else 125]
  | Some l, None => [if r_incl r then 91 else 123] ++ l ++ [62]
  | None, Some u => [60] ++ u ++ [if r_incu r then 93 else 125]
  | None, None => [60; 62]
  end.
Definition filter_s {Q} (spell : Q -> str) (fl : filter Q) : str :=
  match fl with
  | RangeF r => s_rangef ++ range_s None r ++ [32; 62]
  | TypedF r => s_typed ++ s_rangef ++ range_s None r ++ [32; 62]
  | QueryF q => s_queryf ++ spell q ++ [32; 62]
  | Named s => s
  end.
Fixpoint spell (df : option str) (q : query) : str :=
  match q with
  | Term f t b => named df f ++ t ++ tail b
  | Bool cs b =>
      let body := join [32] (map (fun c => sign_of (fst c) ++ (if is_bool (snd c) then [40] ++ spell df (snd c) ++ [41] else spell df (snd c))) cs) in
      match b with None => body | Some x => [40] ++ body ++ [41; 94] ++ number x end
  | Phrase f ps slop b =>
      match ps with
      | [] => named df f ++ [34; 34]
      | _ => named df f ++ [34] ++ phrase ps ++ [34] ++ slop_s slop ++ tail b
      end
  | MultiTerm f ts b => named df f ++ [34] ++ join [124] (map (fun t => fst t ++ tail (snd t)) ts) ++ [34] ++ tail b
  | Prefix f p b => named df f ++ p ++ [42] ++ tail b
  | Wild f p b => named df f ++ p ++ tail b
  | Fuzzy f t sim b => named df f ++ t ++ [126] ++ match sim with None => [] | Some x => number x end ++ tail b
  | Range r b => range_s df r ++ tail b
  | Filtered q' fl b => s_filtered ++ spell df q' ++ s_filter ++ filter_s (fun q'' => spell None q'') fl ++ [41] ++ tail b
  | Const fl b => s_const ++ filter_s (fun q'' => spell None q'') fl ++ [41] ++ tail b
  | All b => [42] ++ tail b
  | SpanTerm f t => s_span_terms ++ named df f ++ t ++ [41]
  | SpanMulti f ts => s_span_terms ++ named df f ++ [91] ++ join [44] ts ++ [93; 41]
  | SpanFirst q' e => s_span_first ++ spell df q' ++ [44; 32] ++ dec e ++ [41]
  | SpanOr qs => s_span_or ++ join [44] (map (spell df) qs) ++ [93]
  | SpanNear qs => s_span_near ++ join [44] (map (spell df) qs) ++ [93]
  | SpanNot i x => s_span_not ++ spell df i ++ s_exc ++ spell df x ++ [62; 41]
  | SpanPrefix f p b => named df f ++ p ++ [42] ++ tail b
  end.

(* queries as they can be made: C strings, ints; finite numbers, phrases whose positions are within 2^28 of 0, at most 39 clauses of a SpanNear *)
Definition word (i : Z) : Prop := - 2 ^ 31 <= i < 2 ^ 31.
Definition fine_range (r : range) : Prop :=
  clean (r_field r) /\ (forall s, r_lower r = Some s -> clean s) /\ (forall s, r_upper r = Some s -> clean s).
Definition fine_filter {Q} (fine : Q -> Prop) (fl : filter Q) : Prop :=
  match fl with RangeF r => fine_range r | TypedF r => fine_range r | QueryF q => fine q | Named s => clean s end.
Definition fine_pos (p : Z * list str) : Prop := - 2 ^ 28 <= fst p <= 2 ^ 28 /\ snd p <> [] /\ Forall clean (snd p).
Fixpoint fine (q : query) : Prop :=
  match q with
  | Term f t b => clean f /\ clean t /\ finite_b b
  | Bool cs b => (fix all l := match l with [] => True | c :: l' => fine (snd c) /\ all l' end) cs /\ finite_b b
  | Phrase f ps slop b => clean f /\ Forall fine_pos ps /\ word slop /\ finite_b b
  | MultiTerm f ts b => clean f /\ Forall (fun t => clean (fst t) /\ finite_b (snd t)) ts /\ finite_b b
  | Prefix f p b => clean f /\ clean p /\ finite_b b
  | Wild f p b => clean f /\ clean p /\ finite_b b
  | Fuzzy f t sim b => clean f /\ clean t /\ finite_b sim /\ finite_b b
  | Range r b => fine_range r /\ finite_b b
  | Filtered q' fl b => fine q' /\ fine_filter (fun q'' => fine q'') fl /\ finite_b b
  | Const fl b => fine_filter (fun q'' => fine q'') fl /\ finite_b b
  | All b => finite_b b
  | SpanTerm f t => clean f /\ clean t
  | SpanMulti f ts => clean f /\ Forall clean ts
  | SpanFirst q' e => fine q' /\ word e
  | SpanOr qs => (fix all l := match l with [] => True | c :: l' => fine c /\ all l' end) qs
  | SpanNear qs => (fix all l := match l with [] => True | c :: l' => fine c /\ all l' end) qs /\ (length qs <= 39)%nat
  | SpanNot i x => fine i /\ fine x
  | SpanPrefix f p b => clean f /\ clean p /\ finite_b b
  end.

(* the other strings *)
Definition field_s (ty : str) (f : option str) (rev : bool) : str :=
  match f with Some f => f ++ [58] | None => [] end ++ ty ++ (if rev then [33] else []).
Definition sort_s (fs : list (str * option str * bool)) : str :=
  [83; 111; 114; 116; 91] ++ join [44; 32] (map (fun x => field_s (fst (fst x)) (snd (fst x)) (snd x)) fs) ++ [93].
Definition df_s (name : str) (vs : list str) : str :=
  let l := join [44; 32] (map (fun v => [34] ++ v ++ [34]) vs) in
  name ++ [58; 32] ++ (if (1 <? length vs)%nat then [91] ++ l ++ [93] else l).
Definition doc_s (fs : list (str * list str)) : str :=
  s_document ++ concat (map (fun x => [32; 32; 61; 62] ++ df_s (fst x) (snd x) ++ [10]) fs).
Fixpoint expl_s (depth : nat) (e : expl) : str :=
  match e with
  | Expl v d ds => repeat 32 (depth * 2) ++ number v ++ [32; 61; 32] ++ d ++ [10] ++ concat (map (expl_s (S depth)) ds)
  end.
Fixpoint fine_expl (e : expl) : Prop :=
  match e with Expl v d ds => finite v /\ clean d /\ (fix all l := match l with [] => True | c :: l' => fine_expl c /\ all l' end) ds end.
Fixpoint html_s (e : expl) : str :=
  match e with
  | Expl v d ds => s_ul ++ number v ++ [32; 61; 32] ++ d ++ s_li ++ concat (map html_s ds) ++ s_end
  end.
