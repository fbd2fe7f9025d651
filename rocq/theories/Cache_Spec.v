(* The bits of a filter for a reader as they are meant: those found when they were asked for first. *)
From Verif Require Import Util Cache_Model.
Open Scope nat_scope.

(* the filters and readers that there are, by address: their numbers, for readers the number of changes; what was found for a filter and a reader, by numbers *)
Record known := mkK { k_flts : nat -> option nat; k_rdrs : nat -> option (nat * nat); k_found : nat -> nat -> option (list Z); k_nf : nat; k_nr : nat }.
Definition upd {A} (m : nat -> option A) (k : nat) (x : option A) : nat -> option A := fun j => if Nat.eq_dec j k then x else m j.
Definition learn (m : nat -> nat -> option (list Z)) (f r : nat) (x : list Z) : nat -> nat -> option (list Z) := fun g q => if Nat.eq_dec g f then if Nat.eq_dec q r then Some x else m g q else m g q.
Section SPEC.
  Variable bits : nat -> nat -> nat -> list Z.
  (* None: an address is used twice at the same time, or one that is not in use *)
  Definition does (s : known) (o : call) : option (option (list Z) * known) :=
    match o with
    | NewFilter a => match k_flts s a with None => Some (None, mkK (upd (k_flts s) a (Some (k_nf s))) (k_rdrs s) (k_found s) (S (k_nf s)) (k_nr s)) | Some _ => None end
    | NewReader b => match k_rdrs s b with None => Some (None, mkK (k_flts s) (upd (k_rdrs s) b (Some (k_nr s, 0))) (k_found s) (k_nf s) (S (k_nr s))) | Some _ => None end
    | Change b => match k_rdrs s b with Some (r, v) => Some (None, mkK (k_flts s) (upd (k_rdrs s) b (Some (r, S v))) (k_found s) (k_nf s) (k_nr s)) | None => None end
    | Bits a b => match k_flts s a, k_rdrs s b with
                  | Some f, Some (r, v) => match k_found s f r with
                                           | Some x => Some (Some x, s)
                                           | None => Some (Some (bits f r v), mkK (k_flts s) (k_rdrs s) (learn (k_found s) f r (bits f r v)) (k_nf s) (k_nr s))
                                           end
                  | _, _ => None
                  end
    | DropFilter a => match k_flts s a with Some _ => Some (None, mkK (upd (k_flts s) a None) (k_rdrs s) (k_found s) (k_nf s) (k_nr s)) | None => None end
    | CloseReader b => match k_rdrs s b with Some _ => Some (None, mkK (k_flts s) (upd (k_rdrs s) b None) (k_found s) (k_nf s) (k_nr s)) | None => None end
    end.
  Fixpoint does_all (s : known) (os : list call) : option (list (option (list Z)) * known) :=
    match os with [] => Some ([], s) | o :: t => match does s o with Some x => match does_all (snd x) t with Some y => Some (fst x :: fst y, snd y) | None => None end | None => None end end.
  Definition nothing : known := mkK (fun _ => None) (fun _ => None) (fun _ _ => None) 0 0.
End SPEC.
