(* Model of qp_clean_str, c/src/q_parser.y 1194-1307.  The string that is built is kept from its end; that it stays within
   the strlen(str) * 2 + 1 bytes allocated is a theorem. *)
From Verif Require Import Util QpLex_Model.
Open Scope Z_scope.

(* 1195 *)
Definition PHRASE_CHARS : list Z := [60; 62; 124; 34].
Record clean := mkCl { cl_out : list Z; cl_pb : Z; cl_br : nat; cl_q : bool }.
(* 1231-1297: one byte *)
Definition clean1 (c : clean) (b : Z) : clean :=
  let out := cl_out c in
  let br := cl_br c in
  let q := cl_q c in
  let esc := if q then 92 :: out else out in
  if cl_pb c =? 92 then
    mkCl (b :: (if q && memz b PHRASE_CHARS then 92 :: out else out)) (if b =? 92 then 114 else b) br q
  else if b =? 92 then mkCl (if q then out else b :: out) b br q
  else if b =? 34 then mkCl (b :: out) b br (negb q)
  else if b =? 40 then mkCl (b :: esc) b (if q then br else S br) q
  else if b =? 41 then
    if q then mkCl (b :: esc) b br q
    else match br with
         | O => mkCl (b :: out ++ [40]) b O q
         | S n => mkCl (b :: out) b n q
         end
  else if b =? 62 then
    if q then (if cl_pb c =? 60 then match out with _ :: _ :: r => mkCl (b :: 60 :: r) b br q | _ => mkCl (b :: out) b br q end
               else mkCl (b :: esc) b br q)
    else mkCl (b :: out) b br q
  else mkCl (b :: (if q && memz b special_char && negb (b =? 124) then 92 :: out else out)) b br q.
Definition clean_all (s : list Z) : clean := fold_left clean1 s (mkCl [] (-1) O false).
(* 1220-1307 *)
Definition clean_str (s : list Z) : list Z :=
  let c := clean_all s in
  rev (repeat 41 (cl_br c) ++ (if cl_q c then 34 :: cl_out c else cl_out c)).
