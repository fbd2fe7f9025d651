From Verif Require Import Util Token_Model.
Open Scope nat_scope.

(* [a,b) is a maximal run of token characters of s *)
Definition max_run (tok : Z -> bool) (s : list Z) (a b : nat) : Prop :=
  a < b <= length s /\ (forall i, a <= i < b -> tok (nth i s 0%Z) = true) /\
  (a = 0 \/ tok (nth (a - 1) s 0%Z) = false) /\ (b = length s \/ tok (nth b s 0%Z) = false).
(* what a tokenizer promises for its token k: a maximal run, its bytes (the first 254 of them), one position further *)
Definition token_of (tok : Z -> bool) (s : list Z) (k : token) : Prop :=
  max_run tok s (t_start k) (t_end k) /\ t_inc k = 1%Z /\
  length (t_text k) = Nat.min 254 (t_end k - t_start k) /\
  forall i, i < length (t_text k) -> nth i (t_text k) 0%Z = nth (t_start k + i) s 0%Z.

(* the tokens with their absolute positions, the first position being that of the stream's start plus the first increment *)
Fixpoint positions (p : Z) (ks : list token) : list (list Z * nat * nat * Z) :=
  match ks with
  | [] => []
  | k :: t => (t_text k, t_start k, t_end k, p + t_inc k)%Z :: positions (p + t_inc k) t
  end.

(* splitting at hyphens: every part with its offset *)
Fixpoint split_parts (s : list Z) (off : nat) (cur : list Z) : list (list Z * nat) :=
  match s with
  | [] => [(cur, off - length cur)]
  | c :: t => if (c =? 45)%Z then (cur, off - length cur) :: split_parts t (S off) [] else split_parts t (S off) (cur ++ [c])
  end.
Definition parts (s : list Z) : list (list Z * nat) := split_parts s 0 [].
(* a word that the filter expands *)
Definition hyphenated (s : list Z) : Prop :=
  In 45%Z (tl s) /\ Forall (fun c => c = 45%Z \/ isalpha c = true) (tl s).
(* the parts as tokens: the first at the position of the word, each further one a position later; an empty last part is dropped *)
Fixpoint part_tokens (start : nat) (first : bool) (ps : list (list Z * nat)) : list token :=
  match ps with
  | [] => []
  | (w, o) :: t => match w, t with
                   | [], [] => []
                   | _, _ => mkTok w (start + o) (start + o + length w) (if first then 0 else 1) :: part_tokens start false t
                   end
  end.
Definition expand (k : token) : list token :=
  mkTok (concat (map fst (parts (t_text k)))) (t_start k) (t_end k) (t_inc k) :: part_tokens (t_start k) true (parts (t_text k)).
