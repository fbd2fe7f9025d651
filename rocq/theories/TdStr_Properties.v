(* C132: TopDocs#to_s. *)
From Coq Require Import String Ascii.
From Verif Require Import Util Json_Model Json_Spec TdStr_Model TdStr_Spec TdStr_Proofs.
Open Scope Z_scope.

(* A line for each hit, however many and however long the values are, within the buffer; a hit whose document does not store the field has an empty value. *)
Theorem C132_text : forall total max hs, 0 <= total < 2147483648 -> bytes max <= 48 -> Forall hit_ok hs -> exists x, frb_td_to_s total max hs = Some x /\ says total max hs x.
Proof. exact to_s_says. Qed.
Print Assumptions C132_text.
Example C132_text_example : frb_td_to_s 12 (name "0.500000") [mkH 7 (Some [name "seven"; name "x"]) (name "0.50000"); mkH 10 None (name "0.25000")]
  = Some (name "TopDocs: total_hits = 12, max_score = 0.500000 [" ++ [10; 9] ++ name "7 ""seven"": 0.50000" ++ [10; 9] ++ name "10 """": 0.25000" ++ [10] ++ name "]" ++ [10]).
Proof. vm_compute. reflexivity. Qed.
(* longer than the first buffer *)
Example C132_long_example : match frb_td_to_s 2 (name "0.500000") [mkH 7 (Some [repeat 97 300]) (name "0.50000"); mkH 8 (Some [repeat 98 700]) (name "0.50000")] with Some x => bytes x = 1080 | None => False end.
Proof. vm_compute. reflexivity. Qed.

(* A hit whose document stores the field with no values, {:id => []}: strlen(NULL). *)
Theorem C132_none_refuted : forall total max hs, Exists (fun h => h_field h = Some []) hs -> frb_td_to_s total max hs = None.
Proof. exact to_s_null. Qed.
Print Assumptions C132_none_refuted.
Example C132_none_example : frb_td_to_s 1 (name "1.000000") [mkH 0 (Some []) (name "1.00000")] = None /\ frb_td_to_s 1 (name "1.000000") [mkH 0 (Some [[]]) (name "1.00000")] <> None.
Proof. split; [reflexivity|vm_compute; discriminate]. Qed.
