(* What C50 says: the rewriting of a text by a list of pairs of a pattern and its replacement *)
From Verif Require Import Util.
Open Scope Z_scope.

(* some pattern ends where w ends *)
Definition ends (ms : list (list Z * list Z)) (w : list Z) : Prop := exists p r u, In (p, r) ms /\ w = u ++ p.
(* the replacement of p: of the mappings with this pattern the one added last *)
Definition replacement (ms : list (list Z * list Z)) (p r : list Z) : Prop := exists a b, ms = a ++ (p, r) :: b /\ forall r', ~ In (p, r') b.
Inductive rewrites (ms : list (list Z * list Z)) : list Z -> list Z -> Prop :=
| rw_copy t : (forall w v, t = w ++ v -> ~ ends ms w) -> rewrites ms t t
| rw_replace u p r v out :
    replacement ms p r ->
    (forall w x y, u ++ p = w ++ x :: y -> ~ ends ms w) ->                                        (* no pattern ends earlier *)
    (forall p' r' u', In (p', r') ms -> u ++ p = u' ++ p' -> (length p' <= length p)%nat) ->       (* no longer pattern ends here *)
    rewrites ms v out -> rewrites ms (u ++ p ++ v) (u ++ r ++ out).
Definition byte_string (l : list Z) : Prop := Forall (fun b => 1 <= b < 256) l.
Definition patterns_ok (ms : list (list Z * list Z)) : Prop := Forall (fun m => fst m <> [] /\ byte_string (fst m)) ms.
