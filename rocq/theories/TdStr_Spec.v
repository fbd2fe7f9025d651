(* The readable format of hits: a head, a line for each with its document, the field and the score, an end. Decimal numbers are those of Json_Spec. *)
From Coq Require Import String Ascii.
From Verif Require Import Util Json_Spec TdStr_Model.
Open Scope Z_scope.

Definition decimal (n : Z) (ds : list Z) : Prop := ds <> [] /\ Forall digit ds /\ (hd 0 ds = 48 -> ds = [48]) /\ value_of ds = n.
Inductive shown : option (list (list Z)) -> list Z -> Prop :=
| Sh_none : shown None []
| Sh_first v l : shown (Some (v :: l)) v.
Definition a_line (h : hit) (l : list Z) : Prop := exists ds v, decimal (h_doc h) ds /\ shown (h_field h) v /\ l = [9] ++ ds ++ name " """ ++ v ++ name """: " ++ h_score h ++ [10].
Definition says (total : Z) (max : list Z) (hs : list hit) (x : list Z) : Prop :=
  exists ds ls, decimal total ds /\ Forall2 a_line hs ls /\ x = name "TopDocs: total_hits = " ++ ds ++ name ", max_score = " ++ max ++ name " [" ++ [10] ++ List.concat ls ++ name "]" ++ [10].
(* no zero bytes in the value shown; a float has 39 digits before its point, 10^9 documents have 9 *)
Definition hit_ok (h : hit) : Prop :=
  0 <= h_doc h < 1000000000 /\ bytes (h_score h) <= 45 /\ match h_field h with None => True | Some [] => False | Some (v :: _) => Forall (fun c => c <> 0) v end.
