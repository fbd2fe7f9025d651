(* What a document is sorted by. *)
From Verif Require Import Util Strcmp Post_Model Range_Spec Sort_Model.
Open Scope Z_scope.

Section SPEC.
  Variables (i : pidx) (f : Z).
  (* the document has the term in the field *)
  Definition posted (t : list Z) (d : Z) : Prop := exists p : post, In p (plook i f t) /\ fst p = d.
  (* its greatest term there, if it has any *)
  Definition top_term (d : Z) (o : option (list Z)) : Prop := match o with None => forall t, ~ posted t d | Some t => posted t d /\ forall u, posted u d -> sle u t end.
  (* what an index of a class says of it. A byte index only has numbers in the order of the terms *)
  Definition text_in (x : findex) (d : Z) : option (list Z) := match cell x d with Some v => nth (Z.to_nat v) (x_vals x) None | None => None end.
  Definition said_of (scan_ld scan_g : list Z -> option Z) (k : klass) (x : findex) (d : Z) (o : option (list Z)) : Prop :=
    match k with
    | KInteger => cell x d = match o with Some t => scan_ld t | None => Some 0 end
    | KFloat => cell x d = match o with Some t => scan_g t | None => Some 0 end
    | KString => text_in x d = o
    | KByte => exists v, cell x d = Some v /\ match o with Some _ => 0 < v | None => v = 0 end
    end.
End SPEC.
