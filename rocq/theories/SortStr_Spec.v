(* How the items of a sort string are written. *)
From Coq Require Import String.
From Verif Require Import Util Codec_Model Seg_Model SortStr_Model.
Open Scope Z_scope.

(* bytes of an item: no comma, no NUL *)
Definition plain (x : list Z) : Prop := Forall (fun c => c <> 44 /\ c <> 0) x.
(* tab, newline, vertical tab, form feed, carriage return, space *)
Definition blank (c : Z) : Prop := 9 <= c <= 13 \/ c = 32.
Definition spaces (x : list Z) : Prop := Forall blank x.
(* a name does not start with a space or colon and does not end in a space *)
Definition name_ok (n : list Z) : Prop :=
  plain n /\ (exists a t, n = a :: t /\ ~ blank a /\ a <> 58) /\ (exists t a, n = t ++ [a] /\ ~ blank a).
(* SCORE and DOC_ID are no fields *)
Inductive names : list Z -> key -> Prop :=
| Na_score : names (str "SCORE") KScore
| Na_doc : names (str "DOC_ID") KDoc
| Na_field n : n <> str "SCORE" -> n <> str "DOC_ID" -> names n (KName n).
(* spaces and colons, the name, the word DESC for a reversed field, spaces *)
Inductive written : list Z -> key * bool -> Prop :=
| Wr_up pre n post k : Forall (fun c => blank c \/ c = 58) pre -> name_ok n -> spaces post -> (forall t, t <> [] -> n <> t ++ str "DESC") -> names n k ->
    written (pre ++ n ++ post) (k, false)
| Wr_down pre n mid post k : Forall (fun c => blank c \/ c = 58) pre -> name_ok n -> spaces mid -> spaces post -> names n k ->
    written (pre ++ n ++ mid ++ str "DESC" ++ post) (k, true).
Fixpoint join (xs : list (list Z)) : list Z := match xs with [] => [] | [x] => x | x :: t => x ++ 44 :: join t end.
(* the constants are where they were *)
Definition heap_ok (h : heap) : Prop :=
  nth_error h 0 = Some (mkSf KScore false true) /\ nth_error h 1 = Some (mkSf KScore true true) /\ nth_error h 2 = Some (mkSf KDoc false true) /\ nth_error h 3 = Some (mkSf KDoc true true).
