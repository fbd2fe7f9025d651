(* What the writer does, when a commit is complete and the order of moments. *)
From Coq Require Import String.
From Verif Require Import Util Codec_Model Seg_Model Seg_Spec Commit_Model Commit_Spec Race_Model.
Open Scope Z_scope.

Definition not_after (x y : moment) : Prop :=
  let '(c, j, k) := x in let '(c', j', k') := y in
  (c < c' \/ c = c' /\ (j < j' \/ j = j' /\ k <= k'))%nat.
(* the state which is current after m commits *)
Definition state_of (s : seg_infos) (H : list commit) (m : nat) : seg_infos :=
  match m with O => s | S m => match nth_error H m with Some h => c_new h | None => s end end.
(* the writer's rules: the files of the current commit are not touched until the next descriptor is complete; files of a commit are
   never written again, only removed *)
Definition follows_rules (g : Z) (s : seg_infos) (H : list commit) : Prop :=
  g + Z.of_nat (length H) < 2 ^ 62 /\
  (forall c h, nth_error H c = Some h -> sis_ok (c_new h) /\ spares (state_of s H c) (c_pre h) /\ spares (c_new h) (c_post h)) /\
  (forall m c h o, (m <= c)%nat -> nth_error H c = Some h -> In o (c_pre h ++ c_post h) -> commit_file (state_of s H m) (op_target o) -> o = Remove (op_target o)).
(* the index at the start: generation g >= 1, no descriptor of the generation before *)
Definition starts (d : dir) (g : Z) (s : seg_infos) : Prop :=
  committed d g s /\ 1 <= g /\ forall fn, segfn_for_generation (g - 1) = Some fn -> lookup fn d = None.
(* all bytes of the descriptor of the m-th commit are written *)
Definition complete (H : list commit) (m : nat) (x : moment) : Prop :=
  match m with
  | O => True
  | S m => let '(c, j, k) := x in
           (m < c)%nat \/
           (m = c /\ exists h bs, nth_error H m = Some h /\ enc_sis (c_new h) = Some bs /\ let P := length (c_pre h) in (P + 1 < j \/ j = P + 1 /\ length bs <= k)%nat)
  end.
(* n bytes of the descriptor of the m-th commit are written, and not all *)
Definition under_way (H : list commit) (m n : nat) (x : moment) : Prop :=
  match m with
  | O => False
  | S m => let '(c, j, k) := x in m = c /\ exists h bs, nth_error H m = Some h /\ enc_sis (c_new h) = Some bs /\ j = S (length (c_pre h)) /\ k = n /\ (n < length bs)%nat
  end.
(* at some moment between two others, m was the latest complete commit *)
Definition current_between (H : list commit) (m : nat) (x y : moment) : Prop := ~ complete H (S m) x /\ complete H m y.
Definition in_order (xs : nat -> moment) (n : nat) : Prop := forall i, (fst (fst (xs i)) <= n)%nat /\ forall j, (i <= j)%nat -> not_after (xs i) (xs j).
(* a directory scan during which the directory changes: it shows every name that is there all the time, and no name that never is *)
Definition scan_between (d : dir) (g : Z) (H : list commit) (x y : moment) (l : list (list Z)) : Prop :=
  (forall fn, (forall z, not_after x z -> not_after z y -> lookup fn (dir_at d g H z) <> None) -> In fn l) /\
  (forall fn, In fn l -> exists z, not_after x z /\ not_after z y /\ lookup fn (dir_at d g H z) <> None).
