(* C30: the write lock. *)
From Verif Require Import Util Lock_Model Lock_Spec Lock_Proofs.

(* File system locks: at most one holder in every interleaving in which lock objects are closed only while the lock is free. *)
Theorem C30_fs_careful_clients : forall l s, careful fs_step l_init l s -> exclusive (holds s).
Proof. exact fs_careful_exclusive. Qed.
Print Assumptions C30_fs_careful_clients.
(* RAM locks: at most one holder if obtaining is not interrupted; closing is harmless. *)
Theorem C30_ram_uninterrupted : forall l s, uninterrupted l_init l s -> exclusive (holds s).
Proof. exact ram_uninterrupted_exclusive. Qed.
Print Assumptions C30_ram_uninterrupted.
(* Writers and readers: at most one modifies the index as long as nobody tries to get or query the lock while it is taken. *)
Theorem C30_polite_clients : forall l, polite w_init l -> exclusive (active (wrun w_init l)).
Proof. exact polite_exclusive. Qed.
Print Assumptions C30_polite_clients.
Example C30_polite_clients_ex : let l := [OpenWriter 0; CloseWriter 0; Modify 1; Modify 1; CommitReader 1; OpenWriter 2] in
  polite w_init l /\ map (active (wrun w_init l)) [0; 1; 2] = [false; false; true].
Proof. split; [|reflexivity]. repeat (apply P_cons; [cbn; auto|cbn [wstep]]). apply P_nil. Qed.
(* The usual sequence release, close removes the lock another client has obtained in between. *)
Theorem C30_release_then_close_refuted : exists l s, lrun fs_step l_init l s /\ ~ exclusive (holds s).
Proof. exact fs_close_breaks. Qed.
Print Assumptions C30_release_then_close_refuted.
(* Two threads can obtain the same RAM lock. *)
Theorem C30_ram_race_refuted : exists l s, lrun ram_step l_init l s /\ ~ exclusive (holds s).
Proof. exact ram_race. Qed.
Print Assumptions C30_ram_race_refuted.
(* A failed attempt to open a writer removes the lock of the open one. *)
Theorem C30_failed_open_refuted : ~ exclusive (active (wrun w_init [OpenWriter 0; OpenWriter 1; OpenWriter 1])).
Proof. exact failed_open_breaks. Qed.
Print Assumptions C30_failed_open_refuted.
(* Asking whether the index is locked unlocks it. *)
Theorem C30_query_refuted : ~ exclusive (active (wrun w_init [OpenWriter 0; IsLocked 1; OpenWriter 1])).
Proof. exact query_breaks. Qed.
Print Assumptions C30_query_refuted.
(* A reader whose first modification failed with LOCK_ERROR may modify on the second try. *)
Theorem C30_reader_retry_refuted : ~ exclusive (active (wrun w_init [OpenWriter 0; Modify 1; Modify 1])).
Proof. exact retry_breaks. Qed.
Print Assumptions C30_reader_retry_refuted.
