(* What a compound file must provide: independent read-only byte arrays, one per member. *)
From Verif Require Import Util Codec_Model Codec_Spec Stream_Model Stream_Spec.
Open Scope nat_scope.

(* A member rejects every bulk read which does not fit. *)
Definition cmpd_past (_ : nat) : res (list Z) := Err.

(* Member k is an array with its own position; operations on one never affect another. *)
Fixpoint ideal_members (cs : list (list Z * nat)) (ops : list (nat * iop)) : list (res ival) :=
  match ops with
  | [] => []
  | (k, o) :: t =>
      match nth_error cs k with
      | None => ideal_members cs t
      | Some (f, p) => match ideal_read cmpd_past f p o with
                       | (UB, _) => [UB]
                       | (r, p1) => r :: ideal_members (upd cs k (f, p1)) t
                       end
      end
  end.

(* A list of files that can be packed: at least one, distinct names; the numbers must fit the
   machine integers of the format. *)
Definition packable (ms : list (list Z * list Z)) : Prop :=
  ms <> [] /\ NoDup (map fst ms) /\
  (Z.of_nat (length ms) < 2 ^ 31)%Z /\
  Forall (fun m => byte_string (fst m)) ms /\
  (Z.of_nat (list_sum (map (fun m => 28 + length (fst m) + length (snd m))%nat ms)) < 2 ^ 62)%Z.
