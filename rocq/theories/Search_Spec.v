(* What a search returns: a slice of the ranking of all hits. *)
From Coq Require Import Sorting.Permutation.
From Verif Require Import Util Strcmp Search_Model.
Open Scope Z_scope.

(* the hits that pass the filters, with the scores that count *)
Definition keep (s : sub) (h : hit) : option hit :=
  match u_bits s with
  | Some b => if b (h_doc h) then match u_post s with Some p => option_map (mkHit (h_doc h)) (p h) | None => Some h end else None
  | None => match u_post s with Some p => option_map (mkHit (h_doc h)) (p h) | None => Some h end
  end.
Definition hits_of (s : sub) : list hit := match u_hits s with None => [] | Some ms => flat_map (fun h => match keep s h with Some x => [x] | None => [] end) ms end.
(* a scorer yields increasing documents, and none if all are deleted *)
Definition sub_ok (s : sub) : Prop := match u_hits s with None => True | Some ms => StronglySorted Z.lt (map h_doc ms) /\ Forall (fun h => 0 <= h_doc h < u_max s) ms /\ (u_live s = 0 -> ms = []) end /\ 0 <= u_max s <= INT_MAX.

(* the ranking by score *)
Definition by_score (a b : hit) : Prop := h_score b < h_score a \/ (h_score a = h_score b /\ h_doc a <= h_doc b).
(* strcoll: a total preorder *)
Definition coll_ok (coll : list Z -> list Z -> Z) : Prop := (forall a b, Z.sgn (coll a b) = - Z.sgn (coll b a)) /\ (forall a b c, coll a b <= 0 -> coll b c <= 0 -> coll a c <= 0).
(* the ranking by keys *)
Section K.
  Variable coll : list Z -> list Z -> Z.
  Definition str_lt (s t : option (list Z)) : Prop := match s, t with Some a, Some b => coll a b < 0 | Some _, None => True | None, _ => False end.
  Definition str_eq (s t : option (list Z)) : Prop := match s, t with Some a, Some b => coll a b = 0 | None, None => True | _, _ => False end.
  Definition key_lt (c : comp) (a b : hit) : Prop :=
    match c_type c with
    | TScore => h_score b < h_score a
    | TDoc => h_doc a < h_doc b
    | TByte | TInteger | TFloat => c_long c (h_doc a) < c_long c (h_doc b)
    | TString => str_lt (c_str c (h_doc a)) (c_str c (h_doc b))
    end.
  Definition key_eq (c : comp) (a b : hit) : Prop :=
    match c_type c with
    | TScore => h_score a = h_score b
    | TDoc => h_doc a = h_doc b
    | TByte | TInteger | TFloat => c_long c (h_doc a) = c_long c (h_doc b)
    | TString => str_eq (c_str c (h_doc a)) (c_str c (h_doc b))
    end.
  Fixpoint by_keys (cs : list comp) (a b : hit) : Prop :=
    match cs with
    | [] => h_doc a <= h_doc b
    | c :: t => (if c_rev c then key_lt c b a else key_lt c a b) \/ (key_eq c a b /\ by_keys t a b)
    end.
End K.

(* R is the ranking of l by P *)
Definition ranking (P : hit -> hit -> Prop) (l R : list hit) : Prop := Permutation l R /\ StronglySorted P R.
Definition slice {A} (first num : Z) (l : list A) : list A := firstn (Z.to_nat num) (skipn (Z.to_nat first) l).
Definition best_score (l : list hit) : Z := fold_right (fun h x => Z.max (h_score h) x) 0 l.

(* the hits of several searchers, renumbered *)
Fixpoint all_hits (start : Z) (ss : list sub) : list hit :=
  match ss with [] => [] | s :: t => map (fun h => mkHit (h_doc h + start) (h_score h)) (hits_of s) ++ all_hits (start + u_max s) t end.
(* comparators of the whole *)
Definition same_key (start mx : Z) (c x : comp) : Prop := c_type x = c_type c /\ c_rev x = c_rev c /\
  forall d, 0 <= d < mx -> match c_type c with TByte | TInteger | TFloat => c_long c (d + start) = c_long x d | TString => c_str c (d + start) = c_str x d | _ => True end.
Fixpoint whole_keys (start : Z) (cs : list comp) (ss : list sub) : Prop :=
  match ss with [] => True | s :: t => Forall2 (same_key start (u_max s)) cs (u_comps s) /\ whole_keys (start + u_max s) cs t end.
Fixpoint total_docs (ss : list sub) : Z := match ss with [] => 0 | s :: t => u_max s + total_docs t end.
(* one searcher over the documents of all *)
Definition merged (ss : list sub) (cs : list comp) : sub := mkSub (Some (all_hits 0 ss)) (Z.of_nat (length (all_hits 0 ss))) None None cs (total_docs ss).
(* m is the maximum score *)
Definition is_best (l : list hit) (m : Z) : Prop := (forall h, In h l -> h_score h <= m) /\ exists h, In h l /\ h_score h = m.
