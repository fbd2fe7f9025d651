(* Excerpts: pieces of the text with their matches tagged, and the choice of windows of matches. *)
From Coq Require Import Sorting.Permutation Sorting.Sorted.
From Verif Require Import Util Match_Model Match_Spec Excerpt_Model.
Open Scope Z_scope.
Definition esorts (esort : (exc -> exc -> Z) -> list exc -> list exc) : Prop :=
  forall cmp, (forall a b, cmp a b <= 0 \/ cmp b a <= 0) -> (forall a b c, cmp a b <= 0 -> cmp b c <= 0 -> cmp a c <= 0) -> forall l, Permutation l (esort cmp l) /\ StronglySorted (fun a b => cmp a b <= 0) (esort cmp l).
(* the offsets of all positions lie in the text and rise; (0, 0) stands for a position without a token *)
Definition offsets_rise (text : list Z) (offs : list (Z * Z)) : Prop :=
  (forall p o, nth_error offs p = Some o -> 0 <= fst o <= snd o /\ snd o <= Z.of_nat (length text)) /\
  (forall p q o r, (p < q)%nat -> nth_error offs p = Some o -> nth_error offs q = Some r -> r = (0, 0) \/ (fst o <= fst r /\ snd o <= snd r)).
(* the text from offset from to upto with the pieces between pairs of offsets tagged *)
Fixpoint marked (text pre post : list Z) (from : Z) (ms : list (Z * Z)) (upto : Z) : list Z :=
  match ms with
  | [] => slice text from upto
  | (s, e) :: t => slice text from s ++ pre ++ slice text s e ++ post ++ marked text pre post e t upto
  end.
(* a piece of text, with the matches from p_first to before p_next tagged *)
Record part := mkPart { p_from : Z; p_to : Z; p_first : nat; p_next : nat }.
Definition run (os : list (Z * Z)) (p : part) : list (Z * Z) := firstn (p_next p - p_first p) (skipn (p_first p) os).
(* the last bytes are shown too if they are not longer than the ellipsis *)
Definition stop (text ell : list Z) (b : Z) : Z := if Z.of_nat (length text) - b <=? Z.of_nat (length ell) then Z.of_nat (length text) else b.
Definition shown (text pre post ell : list Z) (os : list (Z * Z)) (p : part) : list Z :=
  (if 0 <? p_from p then ell else []) ++ marked text pre post (p_from p) (run os p) (stop text ell (p_to p)) ++ (if stop text ell (p_to p) <? Z.of_nat (length text) then ell else []).
Definition st (os : list (Z * Z)) (i : nat) : Z := fst (nth i os (0, 0)).
Definition en (os : list (Z * Z)) (i : nat) : Z := snd (nth i os (0, 0)).
(* the tagged matches are inside of the piece *)
Definition sound (text : list Z) (os : list (Z * Z)) (p : part) : Prop :=
  0 <= p_from p <= p_to p /\ p_to p <= Z.of_nat (length text) /\ (p_first p <= p_next p <= length os)%nat /\
  forall k, (p_first p <= k < p_next p)%nat -> p_from p <= st os k /\ en os k <= p_to p.
Definition zsum (l : list Z) : Z := fold_right Z.add 0 l.
Definition lengths (ps : list part) : Z := zsum (map (fun p => p_to p - p_from p) ps).
(* windows: matches i to j lie within len bytes; the worth of one is the score of its matches which no earlier window has *)
Definition window (len : Z) (os : list (Z * Z)) (w : nat * nat) : Prop := (fst w <= snd w < length os)%nat /\ en os (snd w) <= st os (fst w) + len.
Definition hidden (seen : list (nat * nat)) (k : nat) : bool := existsb (fun w => ((fst w <=? k) && (k <=? snd w))%nat) seen.
Definition worth (sc : list Z) (seen : list (nat * nat)) (w : nat * nat) : Z :=
  zsum (map (fun k => if hidden seen k then 0 else nth k sc 0) (seq (fst w) (S (snd w) - fst w))).
(* each window is a best one given the ones before *)
Fixpoint greedy (len : Z) (os : list (Z * Z)) (sc : list Z) (seen ws : list (nat * nat)) : Prop :=
  match ws with
  | [] => True
  | w :: t => window len os w /\ (forall w2, window len os w2 -> worth sc seen w2 <= worth sc seen w) /\ greedy len os sc (w :: seen) t
  end.
Definition contains (p : part) (w : nat * nat) : Prop := (p_first p <= fst w)%nat /\ (snd w < p_next p)%nat.
