From Verif Require Import Util.
Open Scope Z_scope.
(* byte order of strings *)
Inductive str_lt : list Z -> list Z -> Prop :=
  | lt_nil c t : str_lt [] (c :: t)
  | lt_head c d s t : c < d -> str_lt (c :: s) (d :: t)
  | lt_tail c s t : str_lt s t -> str_lt (c :: s) (c :: t).
(* the number a digit string denotes *)
Definition value (s : list Z) : Z := fold_left (fun a c => 10 * a + (c - 48)) s 0.
Definition digit (c : Z) : Prop := 48 <= c <= 57.
(* decimal notation with exactly w digits *)
Definition zero_padded (w : nat) (n : Z) (s : list Z) : Prop := length s = w /\ Forall digit s /\ value s = n.
