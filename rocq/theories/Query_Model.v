(* Model of the rewriting of queries for several searchers: c/src/q_boolean.c bq_rewrite (1339-1401), c/src/search.c q_combine (369-423) and
   msea_rewrite (1760-1777), the rewriting of expanding queries (q_prefix.c 37-73, q_wildcard.c 92-137, q_fuzzy.c) to a multi-term query.
   A query that expands is given by the terms it accepts; the limit on their number is not modelled here (C36, C37 and C57 have it).
   Left out: fields, boosts, phrases and spans.  The hash set of q_combine keeps the first of equal queries (C08). *)
From Verif Require Import Util Strcmp.
Open Scope Z_scope.

Inductive occur := Should | Must | MustNot.
Inductive query :=
| QTerm (t : list Z)
| QMany (ts : list (list Z))                       (* MultiTermQuery *)
| QExp (n : nat)                                   (* PrefixQuery and so on: the n-th of the patterns *)
| QAll
| QBool (coord_disabled : bool) (cs : list (occur * query)).
Definition is_not (o : occur) : bool := match o with MustNot => true | _ => false end.
Definition is_should (o : occur) : bool := match o with Should => true | _ => false end.
Section R.
  Variable pat : nat -> list Z -> bool.            (* the terms a pattern accepts *)
  (* 1339-1401 bq_rewrite; vocabulary: the terms of the reader in order *)
  Fixpoint rewrite_q (v : list (list Z)) (q : query) : query :=
    match q with
    | QExp n => QMany (filter (pat n) v)
    | QBool cd cs =>
        let rs := map (fun c : occur * query => (fst c, rewrite_q v (snd c))) cs in
        match rs with
        | [(o, r)] => if is_not o then QBool cd (rs ++ [(Must, QAll)]) else r
        | _ => QBool cd (rs ++ if negb (Nat.eqb (length cs) 0) && forallb (fun c : occur * query => is_not (fst c)) cs then [(Must, QAll)] else [])
        end
    | _ => q
    end.
End R.
(* q_eq: equal type and equal parts *)
Definition term_eqb (a b : list Z) : bool := if list_eq_dec Z.eq_dec a b then true else false.
Fixpoint list_eqb {A} (f : A -> A -> bool) (l m : list A) : bool := match l, m with [], [] => true | a :: l', b :: m' => f a b && list_eqb f l' m' | _, _ => false end.
Definition occ_eqb (a b : occur) : bool := match a, b with Should, Should | Must, Must | MustNot, MustNot => true | _, _ => false end.
Fixpoint q_eqb (a b : query) : bool :=
  match a, b with
  | QTerm t, QTerm u => term_eqb t u
  | QMany ts, QMany us => list_eqb term_eqb ts us
  | QExp m, QExp n => Nat.eqb m n
  | QAll, QAll => true
  | QBool c cs, QBool d ds =>
      Bool.eqb c d &&
      (fix go (l m : list (occur * query)) : bool := match l, m with [], [] => true | (o, x) :: l', (p, y) :: m' => occ_eqb o p && q_eqb x y && go l' m' | _, _ => false end) cs ds
  | _, _ => false
  end.
(* hs_add *)
Definition add_unique (us : list query) (q : query) : list query := if existsb (fun u => q_eqb u q) us then us else us ++ [q].
(* 369-423 q_combine *)
Definition parts (q : query) : list query :=
  match q with QBool true cs => if forallb (fun c => is_should (fst c)) cs then map snd cs else [q] | _ => [q] end.
Definition q_combine (qs : list query) : query :=
  let us := fold_left add_unique (flat_map parts qs) [] in
  match us with [u] => u | _ => QBool true (map (fun u => (Should, u)) us) end.
(* 1760-1777 msea_rewrite: vs holds the terms of each reader *)
Definition msea_rewrite (pat : nat -> list Z -> bool) (vs : list (list (list Z))) (q : query) : query := q_combine (map (fun v => rewrite_q pat v q) vs).
(* whether the scorer of a rewritten query stops at a document with these terms (bsc_init_counting_sum_scorer and so on; see C33) *)
Fixpoint runs (d : list (list Z)) (q : query) : bool :=
  match q with
  | QTerm t => existsb (term_eqb t) d
  | QMany ts => existsb (fun t => existsb (term_eqb t) d) ts
  | QExp _ => false
  | QAll => true
  | QBool _ cs =>
      forallb (fun c : occur * query => match fst c with Must => runs d (snd c) | MustNot => negb (runs d (snd c)) | Should => true end) cs &&
      (existsb (fun c : occur * query => match fst c with Must => true | _ => false end) cs || existsb (fun c : occur * query => match fst c with Should => runs d (snd c) | _ => false end) cs)
  end.
