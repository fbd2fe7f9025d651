(* What a query asks of a document, without regard to any index. *)
From Verif Require Import Util Strcmp Query_Model.
Open Scope Z_scope.
Section M.
  Variable pat : nat -> list Z -> bool.
  Fixpoint asks (d : list (list Z)) (q : query) : Prop :=
    match q with
    | QTerm t => In t d
    | QMany ts => exists t, In t ts /\ In t d
    | QExp n => exists t, In t d /\ pat n t = true
    | QAll => True
    | QBool _ cs =>
        (fix all (l : list (occur * query)) : Prop := match l with [] => True | (Must, x) :: l' => asks d x /\ all l' | (MustNot, x) :: l' => ~ asks d x /\ all l' | (Should, _) :: l' => all l' end) cs /\
        ((exists x, In (Must, x) cs) \/
         (fix any (l : list (occur * query)) : Prop := match l with [] => False | (Should, x) :: l' => asks d x \/ any l' | _ :: l' => any l' end) cs \/
         (cs <> [] /\ forall o x, In (o, x) cs -> o = MustNot))
    end.
End M.
(* no query that expands *)
Fixpoint plain (q : query) : bool := match q with QExp _ => false | QBool _ cs => forallb (fun c : occur * query => plain (snd c)) cs | _ => true end.
(* no query that expands below a prohibited clause *)
Fixpoint positive (q : query) : bool := match q with QBool _ cs => forallb (fun c : occur * query => if is_not (fst c) then plain (snd c) else positive (snd c)) cs | _ => true end.
