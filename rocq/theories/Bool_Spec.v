(* Which documents a boolean query matches, and for which queries the scorers are right. *)
From Verif Require Import Util Query_Model Bool_Model.
Open Scope Z_scope.
Fixpoint matches (d : Z) (q : bquery) : bool :=
  match q with
  | BTerm None => false
  | BTerm (Some l) => existsb (Z.eqb d) l
  | BAll mx del => (0 <=? d) && (d <? mx) && negb (del d)
  | BBool cs =>
      forallb (fun c : occur * bquery => match fst c with Must => matches d (snd c) | MustNot => negb (matches d (snd c)) | Should => true end) cs &&
      (existsb (fun c : occur * bquery => match fst c with Must => true | _ => false end) cs || existsb (fun c : occur * bquery => match fst c with Should => matches d (snd c) | _ => false end) cs)
  end.
(* the postings of a term are increasing document numbers *)
Fixpoint leaves_ok (q : bquery) : Prop :=
  match q with
  | BTerm (Some l) => StronglySorted Z.lt l /\ Forall (fun d => 0 <= d) l
  | BTerm None | BAll _ _ => True
  | BBool cs => (fix go (l : list (occur * bquery)) : Prop := match l with [] => True | (_, x) :: t => leaves_ok x /\ go t end) cs
  end.
Definition musts (cs : list (occur * bquery)) : nat := length (filter (fun c : occur * bquery => match fst c with Must => true | _ => false end) cs).
(* no query with several required clauses is asked to skip: it is neither prohibited nor one of several required clauses, and so on
   through queries in between (skip: this query is asked to skip) *)
Fixpoint tame (skip : bool) (q : bquery) : bool :=
  match q with
  | BTerm _ | BAll _ _ => true
  | BBool cs =>
      negb ((2 <=? musts cs)%nat && skip) &&
      forallb (fun c : occur * bquery => match fst c with Must => tame (skip || (2 <=? musts cs)%nat) (snd c) | MustNot => tame true (snd c) | Should => if (musts cs =? 0)%nat then tame skip (snd c) else true end) cs
  end.
