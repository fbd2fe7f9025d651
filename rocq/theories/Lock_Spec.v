(* Mutual exclusion. *)
From Verif Require Import Util Lock_Model.
Definition exclusive (h : nat -> bool) : Prop := forall i j, h i = true -> h j = true -> i = j.
(* lock objects are closed only while the lock is free *)
Inductive careful (step : lstate -> lact -> lstate -> Prop) : lstate -> list lact -> lstate -> Prop :=
| K_nil s : careful step s [] s
| K_cons s a s' l s'' : step s a s' -> (forall i, a = Close i -> file s = false) -> careful step s' l s'' -> careful step s (a :: l) s''.
(* the two halves of ram_lock_obtain are not interleaved with anything else *)
Inductive uninterrupted : lstate -> list lact -> lstate -> Prop :=
| U_nil s : uninterrupted s [] s
| U_obtain s i s1 s2 l s3 : ram_step s (Check i) s1 -> ram_step s1 (Finish i) s2 -> uninterrupted s2 l s3 -> uninterrupted s (Check i :: Finish i :: l) s3
| U_busy s i l s' : file s = true -> uninterrupted s l s' -> uninterrupted s (Check i :: l) s'
| U_release s i s1 l s' : ram_step s (Release i) s1 -> uninterrupted s1 l s' -> uninterrupted s (Release i :: l) s'
| U_close s i s1 l s' : ram_step s (Close i) s1 -> uninterrupted s1 l s' -> uninterrupted s (Close i :: l) s'.
(* who may be changing the index: open writers and readers with accepted modifications *)
Definition active (s : wstate) (i : nat) : bool := writer s i || changes s i.
(* nobody tries to get or query the lock while it is taken, except through a lock object obtained before *)
Inductive polite : wstate -> list wact -> Prop :=
| P_nil s : polite s []
| P_cons s a l : (match a with OpenWriter i => writer s i = true \/ wfile s = false | Modify i => lockobj s i = true \/ wfile s = false | IsLocked _ => wfile s = false | _ => True end) ->
    polite (wstep s a) l -> polite s (a :: l).
