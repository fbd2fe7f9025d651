(* Which documents match a weighted query and what score it gives them, with no scorers and no weights. *)
From Coq Require Import QArith.Qcanon.
From Verif Require Import Util Query_Model Rank_Model.
Open Scope Z_scope.
Definition freq_of (l : list (Z * Z)) (d : Z) : Z := match find (fun p => fst p =? d) l with Some p => snd p | None => 0 end.
Definition leaf_matches (d : Z) (l : leaf) : bool :=
  match l with
  | LTerm None _ => false
  | LTerm (Some l) _ => existsb (fun p => fst p =? d) l
  | LAll mx del => (0 <=? d) && (d <? mx) && negb (del d)
  | LBits l => existsb (Z.eqb d) l
  end.
Fixpoint matches (d : Z) (q : rquery) : bool :=
  match q with
  | RLeaf _ _ l => leaf_matches d l
  | RBool _ _ cs =>
      forallb (fun c : occur * rquery => match fst c with Must => matches d (snd c) | MustNot => negb (matches d (snd c)) | Should => true end) cs &&
      (existsb (fun c : occur * rquery => match fst c with Must => true | _ => false end) cs || existsb (fun c : occur * rquery => match fst c with Should => matches d (snd c) | _ => false end) cs)
  end.
Definition Qcsum (l : list Qc) : Qc := fold_right Qcplus 0%Qc l.
(* the sum of the squares of the weights of the terms asked for *)
Fixpoint squares (q : rquery) : Qc :=
  match q with
  | RLeaf b i l => (idf_of i l * b * (idf_of i l * b))%Qc
  | RBool b _ cs => (b * b * Qcsum (map (fun c : occur * rquery => match fst c with MustNot => 0 | _ => squares (snd c) end) cs))%Qc
  end.
(* there is something to look through *)
Fixpoint has_scorer (q : rquery) : bool :=
  match q with
  | RLeaf _ _ (LTerm None _) => false
  | RLeaf _ _ _ => true
  | RBool _ _ cs => forallb (fun c : occur * rquery => match fst c with Must => has_scorer (snd c) | _ => true end) cs
  end.
Definition asked (c : occur * rquery) : bool := match fst c with MustNot => false | _ => true end.
(* the score of document d, where f is the product of the query's norm and the boosts around it *)
Fixpoint worth (sm : sim) (f : Qc) (q : rquery) (d : Z) : Qc :=
  match q with
  | RLeaf b i (LTerm (Some l) nm) => (tf sm (freq_of l d) * (i * i * b * f) * nm d)%Qc
  | RLeaf _ _ (LTerm None _) => 0%Qc
  | RLeaf b _ _ => (b * f)%Qc
  | RBool b nc cs =>
      let found := filter (fun c => asked c && matches d (snd c)) cs in
      let all := filter (fun c => asked c && has_scorer (snd c)) cs in
      (Qcsum (map (fun c : occur * rquery => if asked c && matches d (snd c) then worth sm (f * b) (snd c) d else 0) cs) * (if nc then 1 else coord sm (length found) (length all)))%Qc
  end.
Definition worth_of (sm : sim) (q : rquery) (d : Z) : Qc := worth sm (query_norm sm (squares q)) q d.
(* postings are increasing document numbers with frequencies that are not negative *)
Definition leaf_ok (l : leaf) : Prop :=
  match l with
  | LTerm (Some l) _ => StronglySorted Z.lt (map fst l) /\ Forall (fun p => 0 <= fst p /\ 0 <= snd p) l
  | LBits l => StronglySorted Z.lt l /\ Forall (fun d => 0 <= d) l
  | _ => True
  end.
Fixpoint leaves_ok (q : rquery) : Prop :=
  match q with
  | RLeaf _ _ l => leaf_ok l
  | RBool _ _ cs => (fix go (l : list (occur * rquery)) : Prop := match l with [] => True | (_, x) :: t => leaves_ok x /\ go t end) cs
  end.
Definition musts (cs : list (occur * rquery)) : nat := length (filter (fun c : occur * rquery => match fst c with Must => true | _ => false end) cs).
(* no query with several required clauses is asked to skip: it is neither prohibited, nor one of several required clauses, nor optional beside
   required ones, and so on through queries in between (skip: this query is asked to skip) *)
Fixpoint tame (skip : bool) (q : rquery) : bool :=
  match q with
  | RLeaf _ _ _ => true
  | RBool _ _ cs =>
      negb ((2 <=? musts cs)%nat && skip) &&
      forallb (fun c : occur * rquery => match fst c with Must => tame (skip || (2 <=? musts cs)%nat) (snd c) | MustNot => tame true (snd c) | Should => tame (skip || (1 <=? musts cs)%nat) (snd c) end) cs
  end.

(* ---------- explanations *)
(* similarities whose factors are positive when they should be *)
Definition fair (sm : sim) : Prop := tf sm 0 = 0%Qc /\ (forall n : Z, (0 < n)%Z -> 0 < tf sm n)%Qc /\ (forall n m, (1 <= n)%nat -> (n <= m)%nat -> 0 < coord sm n m)%Qc /\ (forall s, 0 < s -> 0 < query_norm sm s)%Qc.
(* boosts, idfs, norms and frequencies are positive, every leaf has a scorer *)
Definition leaf_fair (i : Qc) (l : leaf) : Prop :=
  match l with
  | LTerm None _ => False
  | LTerm (Some l) nm => (0 < i)%Qc /\ (forall d, 0 < nm d)%Qc /\ StronglySorted Z.lt (map fst l) /\ Forall (fun p => 0 < snd p) l
  | _ => True
  end.
Fixpoint fair_query (q : rquery) : Prop :=
  match q with
  | RLeaf b i l => (0 < b)%Qc /\ leaf_fair i l
  | RBool b _ cs => (0 < b)%Qc /\ (fix go (l : list (occur * rquery)) : Prop := match l with [] => True | (_, x) :: t => fair_query x /\ go t end) cs
  end.
(* the sets of documents asked for without looking at terms (ranges, filters, all documents) contain d *)
Fixpoint within (d : Z) (q : rquery) : bool :=
  match q with
  | RLeaf _ _ (LTerm _ _) => true
  | RLeaf _ _ l => leaf_matches d l
  | RBool _ _ cs => forallb (fun c : occur * rquery => within d (snd c)) cs
  end.
(* the same query with clauses in another order *)
Inductive shuffled : rquery -> rquery -> Prop :=
| sh_order b nc cs cs' : Permutation cs cs' -> shuffled (RBool b nc cs) (RBool b nc cs')
| sh_inside b nc l o q q' r : shuffled q q' -> shuffled (RBool b nc (l ++ (o, q) :: r)) (RBool b nc (l ++ (o, q') :: r))
| sh_same q : shuffled q q
| sh_trans p q r : shuffled p q -> shuffled q r -> shuffled p r.
(* the documents found by a query, in order, with their scores *)
Definition answer (sm : sim) (q : rquery) (bits : Z -> bool) (l : list (Z * Qc)) : Prop := match scorer_of (q_weight sm q) with None => l = [] | Some s => exists n, forall f, (n <= f)%nat -> hits sm f bits s = Some l end.
