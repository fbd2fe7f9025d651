(* What field_symbol.rb and document.rb document. *)
From Verif Require Import Util RubyDoc_Model.
Open Scope Z_scope.

(* field_symbol.rb 36-46: the last type counts, desc twice is none *)
Inductive says_type : list call -> option ftype -> Prop :=
| St_none : says_type [] None
| St_type cs t : says_type (cs ++ [Type_ t]) (Some t)
| St_desc cs t : says_type cs t -> says_type (cs ++ [Desc]) t.
Definition descs (cs : list call) : nat := length (filter (fun c => match c with Desc => true | Type_ _ => false end) cs).

(* what a document has after it was changed: the last change of a field, the last boost *)
Definition has (ops : list op) (k : list Z) (v : value) : Prop := exists a z, ops = a ++ Store k v :: z /\ forall o, In o z -> o <> Delete k /\ forall w, o <> Store k w.
Definition boosted (b : Z) (ops : list op) (c : Z) : Prop :=
  (exists a z, ops = a ++ Boost c :: z /\ forall e, ~ In (Boost e) z) \/ (c = b /\ forall e, ~ In (Boost e) ops).
(* an Array may stand for a Field with the same strings *)
Inductive like : value -> value -> Prop :=
| Like_same v : like v v
| Like_field l b : like (VArr l) (VField l b).
