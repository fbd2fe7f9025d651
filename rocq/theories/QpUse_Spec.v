(* What users of the query language rely on: cleaning, escaping, connectives and fields. *)
From Verif Require Import Util QpLex_Model QpAct_Model QpClean_Model Qp_Model Qp_Spec QpAst_Spec QpMean_Spec.
Open Scope Z_scope.

(* ---------- balanced strings *)
(* after a backslash; between quotes; the parentheses that are open *)
Definition bal : Type := bool * bool * nat.
Definition bal1 (st : bal) (b : Z) : option bal :=
  let '(esc, q, d) := st in
  if esc then Some (false, q, d)
  else if b =? 92 then Some (true, q, d)
  else if b =? 34 then Some (false, negb q, d)
  else if (b =? 40) || (b =? 41) then
    (if q then None else if b =? 40 then Some (false, q, S d) else match d with S d' => Some (false, q, d') | O => None end)
  else Some (false, q, d).
Fixpoint bals (st : bal) (s : list Z) : option bal := match s with [] => Some st | b :: r => match bal1 st b with Some st' => bals st' r | None => None end end.
Definition balanced (s : list Z) : Prop := bals (false, false, O) s = Some (false, false, O).
(* strings that do not end in a backslash, but between quotes, and where a backslash between quotes is not before a backslash, nor before
   a special character but < > | and the quote *)
Definition tidy1 (st : bool * bool) (b : Z) : option (bool * bool) :=
  let '(esc, q) := st in
  if esc then (if q && (memz b special_char && negb (memz b [60; 62; 124; 34]) || (b =? 92)) then None else Some (false, q))
  else if b =? 92 then Some (true, q)
  else if b =? 34 then Some (false, negb q)
  else Some (false, q).
Fixpoint tidys (st : bool * bool) (s : list Z) : option (bool * bool) := match s with [] => Some st | b :: r => match tidy1 st b with Some st' => tidys st' r | None => None end end.
Definition tidy (s : list Z) : Prop := exists st, tidys (false, false) s = Some st /\ st <> (true, false).

(* ---------- escaping *)
Definition escape (w : list Z) : list Z := flat_map (fun b => [92; b]) w.
Definition is_keyword (w : list Z) : Prop := w = [65; 78; 68] \/ w = [79; 82] \/ w = [78; 79; 84] \/ w = [82; 69; 81].
(* the query string of one clause *)
Definition single (q : ast) : top := Some (Cls Should q None, MNil).

(* ---------- connectives *)
Fixpoint chain (k : conn) (cs : list cls) : more := match cs with [] => MNil | c :: r => MCons k c (chain k r) end.
(* the values of clauses that all have one *)
Fixpoint evals (cf : qconf) (cap : nat) (fs : list (list Z)) (cs : list cls) : option (list (occ * qry)) :=
  match cs with
  | [] => Some []
  | c :: r => match c_eval cf cap fs c, evals cf cap fs r with EOk (Some x), Some l => Some (x :: l) | _, _ => None end
  end.
Definition required (x : occ * qry) : occ * qry := match x with (MustNot, q) => (MustNot, q) | (_, q) => (Must, q) end.

(* ---------- fields *)
Definition somes (l : list (option qry)) : list qry := flat_map (fun o => match o with Some q => [q] | None => [] end) l.
(* a query for several fields: any of the queries for each of them *)
Definition join (cf : qconf) (l : list (option qry)) : option qry :=
  match l with
  | [] => None
  | [o] => o
  | _ => match somes l with [] => None | qs => Some (q_new (NBool false (q_max cf) (map (fun q => (Should, q)) qs))) end
  end.
Definition ev_opt (e : ev (option qry)) : option qry := match e with EOk o => o | _ => None end.
