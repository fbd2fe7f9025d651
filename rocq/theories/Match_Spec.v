(* Ranges of positions, and tagged text. *)
From Coq Require Import Sorting.Permutation Sorting.Sorted.
From Verif Require Import Util Match_Model.
Open Scope Z_scope.
Definition qsorts (qsort : (mr -> mr -> Z) -> list mr -> list mr) : Prop :=
  forall cmp, (forall a b, cmp a b <= 0 \/ cmp b a <= 0) -> (forall a b c, cmp a b <= 0 -> cmp b c <= 0 -> cmp a c <= 0) -> forall l, Permutation l (qsort cmp l) /\ StronglySorted (fun a b => cmp a b <= 0) (qsort cmp l).
(* a position is in some range; two neighbours are in one *)
Definition covers (ms : list mr) (p : Z) : Prop := exists m, In m ms /\ m_start m <= p <= m_end m.
Definition joins (ms : list mr) (p : Z) : Prop := exists m, In m ms /\ m_start m <= p /\ p + 1 <= m_end m.
Definition proper (ms : list mr) : Prop := forall m, In m ms -> m_start m <= m_end m.
(* ranges in order, each more than gap behind the one before *)
Definition apart (gap : Z) (ms : list mr) : Prop := StronglySorted (fun a b => m_end a + gap < m_start b) ms.
Definition within (o m : mr) : bool := (m_start o <=? m_start m) && (m_end m <=? m_end o).
Definition total (ms : list mr) : Z := fold_right (fun m n => m_score m + n) 0 ms.
(* a vector made by adding ranges one by one *)
Definition vec_of (ms : list (Z * Z)) : mvec := fold_left (fun v m => matchv_add v (fst m) (snd m)) ms matchv_new.
Definition range (m : Z * Z) : mr := mkMr (fst m) (snd m) 1.

(* the text from offset a to b; a text with the pieces between pairs of offsets tagged *)
Definition slice (text : list Z) (a b : Z) : list Z := firstn (Z.to_nat (b - a)) (skipn (Z.to_nat a) text).
Fixpoint tagged (text pre post : list Z) (from : Z) (ms : list (Z * Z)) : list Z :=
  match ms with
  | [] => slice text from (Z.of_nat (length text))
  | (s, e) :: t => slice text from s ++ pre ++ slice text s e ++ post ++ tagged text pre post e t
  end.
(* the positions at which ranges start or end have offsets in the text that do not overlap *)
Definition edge (ms : list (Z * Z)) (p : nat) : Prop := exists m, In m ms /\ (Z.of_nat p = fst m \/ Z.of_nat p = snd m).
Definition offsets_ok (text : list Z) (offs : list (Z * Z)) (ms : list (Z * Z)) : Prop :=
  (forall m, In m ms -> 0 <= fst m <= snd m /\ snd m < Z.of_nat (length offs)) /\
  (forall p o, edge ms p -> nth_error offs p = Some o -> 0 <= fst o <= snd o /\ snd o <= Z.of_nat (length text)) /\
  (forall p q o r, edge ms p -> edge ms q -> (p < q)%nat -> nth_error offs p = Some o -> nth_error offs q = Some r -> snd o <= fst r).
Definition offset_pair (offs : list (Z * Z)) (m : mr) : Z * Z := (fst (nth (Z.to_nat (m_start m)) offs (0, 0)), snd (nth (Z.to_nat (m_end m)) offs (0, 0))).
(* an excerpt from match i: as many matches as fit into len bytes *)
Definition fits (len : Z) (ms : list (Z * Z)) (i j : nat) : Prop :=
  (i <= j)%nat /\ (j < length ms)%nat /\ (forall k, (i <= k <= j)%nat -> snd (nth k ms (0, 0)) <= fst (nth i ms (0, 0)) + len) /\
  ((S j < length ms)%nat -> fst (nth i ms (0, 0)) + len < snd (nth (S j) ms (0, 0))).
