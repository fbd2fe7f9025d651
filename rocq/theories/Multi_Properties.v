(* C20, C61: a reader over several segments. *)
From Verif Require Import Util Multi_Model Multi_Spec Multi_Proofs.
Open Scope Z_scope.

(* For any segments, empty ones included: every number below the total is found in exactly one segment at one local number, and every
   document of every segment is found again by its number. *)
Theorem C20_numbering : forall (D : Type) (subs : list (sr D)) mp,
  (forall doc, 0 <= doc < total D subs -> exists i s d, get_reader D (mr_new D subs mp) doc = Some (i, s, d) /\ nth_error subs i = Some s /\ (d < length (r_docs s))%nat /\ doc = before D subs i + Z.of_nat d) /\
  (forall i s d, nth_error subs i = Some s -> (d < length (r_docs s))%nat -> 0 <= before D subs i + Z.of_nat d < total D subs /\ get_reader D (mr_new D subs mp) (before D subs i + Z.of_nat d) = Some (i, s, d)).
Proof. exact bijection. Qed.
Print Assumptions C20_numbering.

(* Any history of fetching, testing, deleting, undeleting and counting, on any segments and any map of field numbers, answers like one
   list of documents: a deletion touches the document with this number and no other. *)
Theorem C20_any_history : forall (D : Type) nf mp (subs : list (sr D)) os, Forall (sr_ok D) subs -> map_ok D nf mp subs -> Forall (op_ok (total D subs) nf) os -> (mp = None \/ Forall no_set os) ->
  mr_run D (mr_new D subs mp) os = Some (flat_run D (put_together D mp subs) os).
Proof. exact history. Qed.
Print Assumptions C20_any_history.
Definition c20_subs : list (sr Z) := [mkSr [] None []; mkSr [10; 11] None [(0, [5; 6])]; mkSr [] (Some []) []; mkSr [] None []; mkSr [20] (Some [0%nat]) [(0, [7])]; mkSr [] None []; mkSr [30; 31; 32] None [(1, [1; 2; 3])]; mkSr [] None []].
Example C20_example : mr_run Z (mr_new Z c20_subs None) [MGet 0; MGet 1; MGet 2; MGet 3; MNumDocs; MDelete 4; MIsDeleted 4; MIsDeleted 3; MIsDeleted 5; MDelete 6; MDelete 4; MNumDocs; MUndelete; MNumDocs; MGet 2; MMaxDoc]
  = Some [MDoc (Some 10); MDoc (Some 11); MDoc None; MDoc (Some 30); MNum 5; MUnit; MBool true; MBool false; MBool false; MUnit; MUnit; MNum 4; MUnit; MNum 6; MDoc (Some 20); MNum 6].
Proof. vm_compute. reflexivity. Qed.

(* C61: the norms read through a reader of one index are those of its segments one after the other, at any moment of any history. *)
Theorem C61_norms_of_one_index : forall (D : Type) (subs : list (sr D)) os, Forall (sr_ok D) subs -> Forall (op_ok (total D subs) None) os ->
  mr_run D (mr_new D subs None) os = Some (flat_run D (put_together D None subs) os).
Proof. exact one_index. Qed.
Print Assumptions C61_norms_of_one_index.
Example C61_example : mr_run Z (mr_new Z c20_subs None) [MNorms 0; MSetNorm 1 0 9; MSetNorm 3 0 9; MNorms 0; MNorms 1; MSetNorm 5 1 0; MNorms 1]
  = Some [MBytes [5; 6; 7; 0; 0; 0]; MUnit; MUnit; MBytes [5; 9; 7; 0; 0; 0]; MBytes [0; 0; 0; 1; 2; 3]; MUnit; MBytes [0; 0; 0; 1; 2; 0]].
Proof. vm_compute. reflexivity. Qed.
(* A reader put together from readers whose fields are numbered differently drops the cached norms of the wrong field: a norm that has
   been set is not seen by the next reading. *)
Definition c61_subs : list (sr Z) := [mkSr [10] None [(0, [5]); (1, [6])]; mkSr [20] None [(0, [7]); (1, [8])]].
Definition c61_map : option (list (list Z)) := Some [[0; 1]; [1; 0]].
Theorem C61_norms_of_joined_readers_refuted : Forall (sr_ok Z) c61_subs /\ map_ok Z (Some 2) c61_map c61_subs /\
  mr_run Z (mr_new Z c61_subs c61_map) [MNorms 0; MSetNorm 1 0 9; MNorms 0] = Some [MBytes [5; 8]; MUnit; MBytes [5; 8]] /\
  flat_run Z (put_together Z c61_map c61_subs) [MNorms 0; MSetNorm 1 0 9; MNorms 0] = [MBytes [5; 8]; MUnit; MBytes [5; 9]].
Proof. exact stale_norms. Qed.
Print Assumptions C61_norms_of_joined_readers_refuted.
