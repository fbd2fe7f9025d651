(* What except.h promises (1-72): a block after XFINALLY or FINALLY is always run, once; an exception goes to the nearest switch that has a case for it and on
   outwards unless HANDLED is said; in a block after XFINALLY or XCATCHALL the code after a RAISE is run, and the first exception is the one that goes on. *)
From Verif Require Import Util Except_Model.
Open Scope Z_scope.
Section SPEC.
  Variable U : Type.
  (* a statement ends with a state, an exception on its way (its own code and text) and whether it was left before its end *)
  Inductive dres := Bad | R (u : U) (p : option exn) (left : bool).
  Definition first (p : option exn) (e : exn) : option exn := match p with None => Some e | Some _ => p end.
  (* an exception that comes out of a statement: in a block after XFINALLY or XCATCHALL the next statement is run all the same *)
  Definition escape (fin : bool) (u : U) (e p : option exn) : dres := match e with None => R u p false | Some x => if fin then R u (first p x) false else R u (Some x) true end.
  Fixpoint eval (fin : bool) (s : stmt U) (u : U) (p : option exn) : dres :=
    match s with
    | Do f => match f u with None => Bad | Some v => R v p false end
    | Raise g => escape fin u (g u) p
    | Handled => R u None false
    | Seq a b => match eval fin a u p with R v q false => eval fin b v q | r => r end
    | Fin b f => match eval false b u None with Bad => Bad | R v e _ => match eval true f v e with Bad => Bad | R w e' _ => escape fin w e' p end end
    | Catch b h => match eval false b u None with Bad => Bad | R v None _ => R v p false | R v e _ => match eval true h v e with Bad => Bad | R w e' _ => escape fin w e' p end end
    | Cases b has h => match eval false b u None with Bad => Bad | R v None _ => R v p false | R v (Some x) _ => if has (fst x) then match eval false (h (fst x)) v (Some x) with Bad => Bad | R w e' _ => escape fin w e' p end else escape fin v (Some x) p end
    | CasesFin b has h f =>
        match (match eval false b u None with Bad => Bad | R v (Some x) _ => if has (fst x) then eval false (h (fst x)) v (Some x) else R v (Some x) false | r => r end) with
        | Bad => Bad
        | R w e _ => match eval fin f w p with Bad => Bad | R z q true => R z q true | R z q false => escape fin z e q end
        end
    end.
  (* ---------- where a statement is: in a block after TRY (or outside), in a case, in a block after XFINALLY or XCATCHALL *)
  Inductive mode := Body | Hand | Final.
  Definition is_final (m : mode) : bool := match m with Final => true | _ => false end.
  Definition quiet (r : dres) : Prop := match r with R _ (Some _) _ => False | _ => True end.
  (* calm: nothing is raised in a case; no TRY inside of a case, XFINALLY or XCATCHALL lets an exception out; a TRY with FINALLY handles its exceptions *)
  Fixpoint calm (m : mode) (s : stmt U) (u : U) (p : option exn) : Prop :=
    let tame r := match m with Body => True | _ => quiet r end in
    match s with
    | Do _ | Handled => True
    | Raise g => match m with Hand => g u = None | _ => True end
    | Seq a b => calm m a u p /\ match eval (is_final m) a u p with R v q false => calm m b v q | _ => True end
    | Fin b f => calm Body b u None /\ match eval false b u None with Bad => True | R v e _ => calm Final f v e end /\ tame (eval false s u None)
    | Catch b h => calm Body b u None /\ match eval false b u None with Bad | R _ None _ => True | R v e _ => calm Final h v e end /\ tame (eval false s u None)
    | Cases b has h => calm Body b u None /\ match eval false b u None with Bad | R _ None _ => True | R v (Some x) _ => has (fst x) = true -> calm Hand (h (fst x)) v (Some x) end /\ tame (eval false s u None)
    | CasesFin b has h f => calm Body b u None /\
        match eval false b u None with Bad => True | R v None _ => calm m f v p
        | R v (Some x) _ => has (fst x) = true /\ calm Hand (h (fst x)) v (Some x) /\ match eval false (h (fst x)) v (Some x) with Bad => True | R w e _ => e = None /\ calm m f w p end end
    end.
  (* mute: no RAISE at all.  own: with an exception on its way, nothing is raised *)
  Fixpoint mute (s : stmt U) : Prop :=
    match s with Do _ | Handled => True | Raise _ => False | Seq a b | Fin a b | Catch a b => mute a /\ mute b | Cases b _ h => mute b /\ forall c, mute (h c) | CasesFin b _ h f => mute b /\ (forall c, mute (h c)) /\ mute f end.
  Fixpoint own (m : mode) (s : stmt U) (u : U) (p : option exn) : Prop :=
    match s with
    | Do _ | Handled => True
    | Raise g => p = None \/ g u = None
    | Seq a b => own m a u p /\ match eval (is_final m) a u p with R v q false => own m b v q | _ => True end
    | Fin b f => (p = None \/ mute s) /\ own Body b u None /\ match eval false b u None with Bad => True | R v e _ => own Final f v e end
    | Catch b h => (p = None \/ mute s) /\ own Body b u None /\ match eval false b u None with Bad | R _ None _ => True | R v e _ => own Final h v e end
    | Cases b has h => (p = None \/ mute s) /\ own Body b u None /\ match eval false b u None with Bad | R _ None _ => True | R v (Some x) _ => has (fst x) = true -> own Hand (h (fst x)) v (Some x) end
    | CasesFin b has h f => (p = None \/ mute s) /\ own Body b u None /\
        match eval false b u None with Bad => True | R v None _ => own m f v p
        | R v (Some x) _ => own Hand (h (fst x)) v (Some x) /\ match eval false (h (fst x)) v (Some x) with Bad => True | R w e _ => own m f w p end end
    end.
End SPEC.
Arguments Bad {U}. Arguments R {U}. Arguments eval {U}. Arguments escape {U}. Arguments calm {U}. Arguments own {U}. Arguments mute {U}. Arguments quiet {U}.
