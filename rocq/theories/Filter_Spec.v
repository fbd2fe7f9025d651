(* What a scorer has to stop at, given the increasing list of the documents that match. *)
From Verif Require Import Util BitVector_Model Query_Model Bool_Model Bool_Spec Filter_Model.
Open Scope Z_scope.
Definition at_least (op : option Z) (x : Z) : bool := match op with None => true | Some d => d <=? x end.
(* moves of one scorer: next (None) goes to the next document of the list, skip_to d to the next one that is not less than d;
   None: there is no such document, and the scorer is not used any more *)
Fixpoint visits (rest : list Z) (ops : list (option Z)) : list (option Z) :=
  match ops with
  | [] => []
  | op :: t => match filter (at_least op) rest with [] => [None] | x :: r => Some x :: visits r t end
  end.
(* skip_to is called with documents of the index after the current one only *)
Fixpoint forward (max_doc : nat) (cur : Z) (rest : list Z) (ops : list (option Z)) : Prop :=
  match ops with
  | [] => True
  | op :: t =>
      match op with None => True | Some d => cur < d < Z.of_nat max_doc end /\
      match filter (at_least op) rest with [] => True | x :: r => forward max_doc x r t end
  end.
(* one scorer run on the model until it returns false *)
Fixpoint cs_moves (w : world) (f : nat) (ops : list (option Z)) : option (list (option Z)) :=
  match ops with
  | [] => Some []
  | op :: t => do r <- cs_move w f (option_map Z.to_nat op);
               match fst r with None => Some [None] | Some d => do l <- cs_moves (snd r) f t; Some (Some (Z.of_nat d) :: l) end
  end.
Fixpoint fq_moves (fuel : nat) (w : world) (f : nat) (s : sc) (ops : list (option Z)) : option (list (option Z)) :=
  match ops with
  | [] => Some []
  | op :: t => do r <- fq_move fuel w f op s; if fst r then do l <- fq_moves fuel w f (snd r) t; Some (Some (doc_of (snd r)) :: l) else Some [None]
  end.
Definition skips (op : option Z) : bool := match op with None => false | Some _ => true end.
Definition member (l : list nat) (i : nat) : bool := existsb (Nat.eqb i) l.
(* the documents below n that a filter selects, in increasing order *)
Definition selected (l : list nat) (n : nat) : list nat := filter (member l) (seq 0 n).
(* the filter finds documents of the index; its vector has a word to spare: there are less than 128 documents, or their number is no
   multiple of 32, or the last one is not selected *)
Definition within (max_doc : nat) (l : list nat) : Prop := Forall (fun d => (d < max_doc)%nat) l.
Definition spare (max_doc : nat) (l : list nat) : Prop := (max_doc < 128 \/ max_doc mod 32 <> 0 \/ ~ In (max_doc - 1) l)%nat.
(* nothing is deleted *)
Definition quiet (e : event) : Prop := match e with Del _ => False | _ => True end.
