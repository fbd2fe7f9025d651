(* What the enumerators and the scorer of a phrase are to their users. *)
From Coq Require Import Sorting.Permutation Sorting.Sorted.
From Verif Require Import Util Post_Model Post_Spec Range_Model Range_Spec Phrase_Spec Tpe_Model.
Open Scope Z_scope.

(* the postings of documents that are not deleted *)
Definition alive (del : Z -> bool) (l : list post) : list post := filter (fun p => negb (del (fst p))) l.
(* the positions in a document *)
Definition places (d : Z) (l : list post) : list Z := match find (fun p : post => fst p =? d) l with Some p => snd p | None => [] end.
(* several lists of postings as one: every document once, with all its positions in order *)
Definition alts_of (ls : list (list post)) (L : list post) : Prop :=
  StronglySorted (fun x y => fst x < fst y) L /\ (forall d, In d (map fst L) <-> exists l, In l ls /\ In d (map fst l)) /\
  Forall (fun p : post => Permutation (flat_map (places (fst p)) ls) (snd p) /\ StronglySorted Z.le (snd p)) L.
(* a correct qsort *)
Definition cell (t : list (list Z)) (i j : nat) : Z := nth j (nth i t []) 0.
Definition qs_ok (qs : list (list Z) -> list nat) : Prop :=
  forall t, (forall i j, (i < length t)%nat -> (j < length t)%nat -> cell t i j <= 0 \/ cell t j i <= 0) ->
            (forall i j k, (i < length t)%nat -> (j < length t)%nat -> (k < length t)%nat -> cell t i j <= 0 -> cell t j k <= 0 -> cell t i k <= 0) ->
            Permutation (seq 0 (length t)) (qs t) /\ StronglySorted (fun i j => cell t i j <= 0) (qs t).
(* the documents in which some alternative of every position is where it should be *)
Definition phrase_at (i : pidx) (f : Z) (ps : list (Z * list (list Z))) (d b : Z) : Prop :=
  Forall (fun p : Z * list (list Z) => exists t x, In t (snd p) /\ In x (plook i f t) /\ fst x = d /\ In (b + fst p) (snd x)) ps.
Definition has_phrase (i : pidx) (f : Z) (del : Z -> bool) (ps : list (Z * list (list Z))) (d : Z) : Prop := del d = false /\ exists b, phrase_at i f ps d b.
(* the documents in which occurrences of alternatives of the positions are moved against each other by at most slop *)
Definition has_near (i : pidx) (f : Z) (del : Z -> bool) (slop : Z) (ps : list (Z * list (list Z))) (d : Z) : Prop :=
  del d = false /\ exists xs, Forall2 (fun (p : Z * list (list Z)) b => exists t x, In t (snd p) /\ In x (plook i f t) /\ fst x = d /\ In (b + fst p) (snd x)) ps xs /\ apart slop xs.
(* some position of the phrase is at most as far from the start of the phrase as its words are from the start of the field *)
Definition leads (i : pidx) (f : Z) (ps : list (Z * list (list Z))) : Prop := exists p, In p ps /\ forall t x, In t (snd p) -> In x (plook i f t) -> Forall (fun z => fst p <= z) (snd x).
(* positions are given in order, documents are ints *)
Definition in_order (i : pidx) (f : Z) (ts : list (list Z)) : Prop := forall t x, In t ts -> In x (plook i f t) -> fst x < C_INT_MAX /\ snd x <> [] /\ StronglySorted Z.le (snd x).
(* one term for every position and no position twice in a document *)
Definition plain (i : pidx) (f : Z) (ps : list (Z * list (list Z))) : Prop := Forall (fun p : Z * list (list Z) => exists t, snd p = [t] /\ forall x, In x (plook i f t) -> StronglySorted Z.lt (snd x)) ps.
(* n places in the document at which the phrase starts *)
Definition phrase_count (i : pidx) (f : Z) (ps : list (Z * list (list Z))) (d n : Z) : Prop := exists bs, NoDup bs /\ (forall b, In b bs <-> phrase_at i f ps d b) /\ Z.of_nat (length bs) = n.
(* the states of a scorer after calls of next and of skip_to beyond the current document *)
Section REACH.
  Variables (r : prdr) (del : Z -> bool) (qs : list (list Z) -> list nat) (s0 : csc).
  Definition cgives (op : option Z) (s : csc) (x : bool * csc) : Prop := exists n, forall k, (n <= k)%nat -> csc_run r del qs k op s = Some x.
  Inductive creached : csc -> option Z -> Prop :=
  | CR_new : creached s0 None
  | CR_step s cur op s' : creached s cur -> beyond cur op -> cgives op s (true, s') -> creached s' (Some (s_doc s')).
End REACH.
