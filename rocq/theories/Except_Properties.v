(* C100, C101, C102: exceptions *)
From Verif Require Import Util Except_Model Except_Spec Except_Proofs.
Open Scope Z_scope.
(* C100: calm programs end as promised, outside of any TRY ... *)
Theorem C100_promised U (s : stmt U) u buf : calm Body s u None ->
  match eval false s u None with
  | Bad => exists n0, forall n, (n0 <= n)%nat -> exec n s u [] buf = Some Stuck
  | R v None _ => exists n0 buf', forall n, (n0 <= n)%nat -> exec n s u [] buf = Some (Res Next v [] buf')
  | R v (Some e) _ => exists n0 m, forall n, (n0 <= n)%nat -> exec n s u [] buf = Some (Res (Exit (fst e) m) v [] m)
  end.
Proof. intros HC. pose proof (outside U s u buf HC) as G. destruct (eval false s u None) as [|v [e|] l]; [exact G| |exact G]. destruct G as (n0 & m & G & _). eauto. Qed.
Print Assumptions C100_promised.
(* ... and inside of one, whatever the contexts below: they are left as they are, and an exception goes to the nearest one *)
Theorem C100_inside U (s : stmt U) u x st buf : calm Body s u None -> in_fin x = false -> handled x = true ->
  match eval false s u None with
  | Bad => exists n0, forall n, (n0 <= n)%nat -> exec n s u (x :: st) buf = Some Stuck
  | R v None _ => exists n0 y buf', in_fin y = false /\ handled y = true /\ forall n, (n0 <= n)%nat -> exec n s u (x :: st) buf = Some (Res Next v (y :: st) buf')
  | R v (Some e) _ => exists n0 buf', forall n, (n0 <= n)%nat -> exec n s u (x :: st) buf = Some (Res Thrown v (mkCtx false false (fst e) :: st) buf')
  end.
Proof. exact (inside U s u x st buf). Qed.
Print Assumptions C100_inside.
(* a trace: 1 runs, 3 is raised, the inner block after XFINALLY runs and raises 5, which is dropped; the case of the outer TRY handles 3; FINALLY runs *)
Definition tr (k : Z) : stmt (list Z) := Do (fun l => Some (l ++ [k])).
Definition prog : stmt (list Z) :=
  CasesFin (Seq (Fin (Seq (tr 1) (Seq (Raise (fun _ => Some (3, 30))) (tr 2))) (Seq (tr 4) (Seq (Raise (fun _ => Some (5, 50))) (tr 6)))) (tr 7))
    (fun c => c =? 3) (fun _ => Seq (tr 8) (Seq Handled (tr 9))) (Seq (tr 10) (Raise (fun _ => Some (11, 110)))).
Example prog_example : calm Body prog [] None /\ eval false prog [] None = R [1; 4; 6; 8; 9; 10] (Some (11, 110)) true /\ exec 20 prog [] [] 0 = Some (Res (Exit 11 110) [1; 4; 6; 8; 9; 10] [] 110).
Proof. split; [|vm_compute; auto]. cbn. repeat split; auto. Qed.
(* refuted: a TRY in a block after XFINALLY that lets an exception out starts the block again, here for ever *)
Theorem C100_nested_refuted U e1 e2 (g h : U -> option U) n u buf : (forall u, g u <> None) -> (forall u, h u <> None) ->
  exec n (Fin (Raise (fun _ => Some e1)) (Seq (Do g) (Fin (Raise (fun _ => Some e2)) (Do h)))) u [] buf = None /\
  exists v, eval false (Fin (Raise (fun _ => Some e1)) (Seq (Do g) (Fin (Raise (fun _ => Some e2)) (Do h)))) u None = R v (Some e1) true.
Proof. intros Hg Hh. split; [exact (nested_ever U e1 e2 g h Hg Hh n u buf)|]. cbn. destruct (g u) as [v|] eqn:E; [|destruct (Hg u E)]. destruct (h v) as [w|] eqn:E'; [|destruct (Hh v E')]. exists w. reflexivity. Qed.
Print Assumptions C100_nested_refuted.
(* with a second exception that is raised twice only, the block runs three times *)
Example nested_example : exec 20 (Fin (Raise (fun _ => Some (3, 30))) (Seq (tr 1) (Seq (Fin (Raise (fun l => if (Nat.ltb (length l) 3) then Some (4, 40) else None)) (Do (fun l => Some l))) (tr 2)))) [] [] 0 = Some (Res (Exit 4 40) [1; 1; 1; 2] [] 40).
Proof. vm_compute. reflexivity. Qed.
(* refuted: an exception raised in a case goes to the same switch *)
Theorem C100_case_refuted U c m m' n (u : U) buf :
  exec n (Cases (Raise (fun _ => Some (c, m))) (fun k => k =? c) (fun _ => Seq Handled (Raise (fun _ => Some (c, m'))))) u [] buf = None /\
  eval false (Cases (Raise (fun _ => Some (c, m))) (fun k => k =? c) (fun _ => Seq Handled (Raise (fun _ => Some (c, m'))))) u None = R u (Some (c, m')) true.
Proof. split; [exact (handler_ever U c m m' n u buf)|]. cbn. rewrite Z.eqb_refl. reflexivity. Qed.
Print Assumptions C100_case_refuted.
Example case_example : exec 20 (Cases (Raise (fun _ => Some (3, 30))) (fun k => (k =? 3) || (k =? 4)) (fun k => Seq (tr k) (Seq Handled (Raise (fun _ => if k =? 3 then Some (4, 40) else None))))) [] [] 0 = Some (Res Next [3; 4] [] 40).
Proof. vm_compute. reflexivity. Qed.
(* refuted: FINALLY is not run for an exception that is not handled *)
Theorem C100_finally_refuted U c m h (f : stmt U) n u buf : (4 <= n)%nat ->
  exec n (CasesFin (Raise (fun _ => Some (c, m))) (fun _ => false) h f) u [] buf = Some (Res (Exit c m) u [] m) /\
  eval false (CasesFin (Raise (fun _ => Some (c, m))) (fun _ => false) h f) u None = match eval false f u None with Bad => Bad | R v q true => R v q true | R v _ false => R v (Some (c, m)) true end.
Proof. exact (finally_skipped U c m h f n u buf). Qed.
Print Assumptions C100_finally_refuted.
Example finally_example : exec 20 (CasesFin (Seq (tr 1) (Raise (fun _ => Some (3, 30)))) (fun c => c =? 4) (fun _ => Handled) (tr 2)) [] [] 0 = Some (Res (Exit 3 30) [1] [] 30).
Proof. vm_compute. reflexivity. Qed.

(* C101: the message an exception arrives with is the one it was raised with, if nothing is raised while it is on its way *)
Theorem C101_message U (s : stmt U) u buf v e l : calm Body s u None -> own Body s u None -> eval false s u None = R v (Some e) l -> exists n0, forall n, (n0 <= n)%nat -> exec n s u [] buf = Some (Res (Exit (fst e) (snd e)) v [] (snd e)).
Proof. intros HC HO HE. pose proof (outside U s u buf HC) as G. rewrite HE in G. destruct G as (n0 & m & G & M). rewrite (M HO) in G. eauto. Qed.
Print Assumptions C101_message.
Example message_example : let s := Fin (Seq (Catch (Raise (fun _ => Some (3, 30))) (Seq (tr 1) Handled)) (Raise (fun _ => Some (4, 40)))) (tr 2) in calm Body s [] None /\ own Body s [] None /\ exec 20 s [] [] 0 = Some (Res (Exit 4 40) [1; 2] [] 40).
Proof. split; [|split; [|vm_compute; reflexivity]]; cbn; repeat split; auto. Qed.
(* refuted: an exception dropped in a block after XFINALLY, or handled there, leaves its message to the one on its way *)
Theorem C101_dropped_refuted U e1 e2 n (u : U) buf : (4 <= n)%nat -> exec n (Fin (Raise (fun _ => Some e1)) (Raise (fun _ => Some e2))) u [] buf = Some (Res (Exit (fst e1) (snd e2)) u [] (snd e2)).
Proof. exact (dropped U e1 e2 n u buf). Qed.
Print Assumptions C101_dropped_refuted.
Theorem C101_handled_refuted U e1 e2 n (u : U) buf : (6 <= n)%nat -> exec n (Catch (Raise (fun _ => Some e1)) (Catch (Raise (fun _ => Some e2)) Handled)) u [] buf = Some (Res (Exit (fst e1) (snd e2)) u [] (snd e2)).
Proof. exact (handled_inside U e1 e2 n u buf). Qed.
Print Assumptions C101_handled_refuted.
Example dropped_example : exec 9 (Fin (Raise (fun _ => Some (3, 30))) (Raise (fun _ => Some (4, 40)))) [] [] 0 = Some (Res (Exit 3 40) (@nil Z) [] 40) /\ eval false (Fin (Raise (fun _ => Some (3, 30))) (Raise (fun _ => Some (4, 40)))) (@nil Z) None = R [] (Some (3, 30)) true.
Proof. vm_compute. auto. Qed.

(* C102: sis_write when its files can be opened *)
Theorem C102_opened write1 write2 remove new gen old d buf : d_os d = None -> Forall (fun h => (h < d_next d)%nat) (d_live d) -> (remove = true -> ~ In old (d_names d) /\ old <> new /\ old <> gen) ->
  exists n0 o d' buf', (forall n, (n0 <= n)%nat -> exec n (sis_write false write1 false write2 remove new gen old) d [] buf = Some (Res o d' [] buf')) /\ d_live d' = d_live d /\
    if write1 then o = Exit IO_ERROR new /\ d_names d' = new :: d_names d else o = Next /\ (forall x, In x (d_names d') <-> (x = new \/ x = gen \/ In x (d_names d)) /\ x <> old).
Proof. exact (sis_write_ok write1 write2 remove new gen old d buf). Qed.
Print Assumptions C102_opened.
Definition disk0 : disk := mkDisk None [0%nat; 1%nat] 2 [5; 6; 7] [].
Example sis_write_example : exec 20 (sis_write false false false true false 8 5 7) disk0 [] 0 = Some (Res Next (mkDisk (Some 3%nat) [0%nat; 1%nat] 4 [5; 8; 5; 6] []) [] 5) /\
  exec 20 (sis_write false true false false false 8 5 7) disk0 [] 0 = Some (Res (Exit 3 8) (mkDisk (Some 2%nat) [0%nat; 1%nat] 3 [8; 5; 6; 7] []) [] 8).
Proof. vm_compute. auto. Qed.
(* refuted: the segments file cannot be opened, and NULL is closed; segments cannot be opened, and the stream before is closed a second time *)
Theorem C102_open_refuted write1 open2 write2 remove new gen old d buf n : d_os d = None -> (9 <= n)%nat -> exec n (sis_write true write1 open2 write2 remove new gen old) d [] buf = Some Stuck.
Proof. exact (open1_stuck write1 open2 write2 remove new gen old d buf n). Qed.
Print Assumptions C102_open_refuted.
Theorem C102_reopen_refuted write2 remove new gen old d buf n : Forall (fun h => (h < d_next d)%nat) (d_live d) -> (9 <= n)%nat -> exec n (sis_write false false true write2 remove new gen old) d [] buf = Some Stuck.
Proof. exact (open2_stuck write2 remove new gen old d buf n). Qed.
Print Assumptions C102_reopen_refuted.
(* refuted: everything is written, the file before cannot be removed: it is noted for later, and the commit raises *)
Theorem C102_remove_refuted new gen old d buf n : Forall (fun h => (h < d_next d)%nat) (d_live d) -> In old (d_names d) -> (9 <= n)%nat ->
  exists d', exec n (sis_write false false false false true new gen old) d [] buf = Some (Res (Exit IO_ERROR old) d' [] old) /\ d_pending d' = old :: d_pending d /\ In new (d_names d').
Proof. exact (remove_raises new gen old d buf n). Qed.
Print Assumptions C102_remove_refuted.
Example refuted_example : exec 9 (sis_write true false false false false 8 5 7) disk0 [] 0 = Some Stuck /\ exec 9 (sis_write false false true false false 8 5 7) disk0 [] 0 = Some Stuck /\
  exec 9 (sis_write false false false false true 8 5 7) disk0 [] 0 = Some (Res (Exit 3 7) (mkDisk (Some 3%nat) [0%nat; 1%nat] 4 [5; 8; 5; 6; 7] [7]) [] 7).
Proof. vm_compute. auto. Qed.
