(* JSON (RFC 8259), as far as the texts of to_json may use it: numbers without sign, fraction and exponent, strings, arrays, objects; no spaces, no true, false and null, no \u.
   A text in which these do not occur is JSON if and only if it is here. *)
From Coq Require Import String Ascii.
From Verif Require Import Util.
Open Scope Z_scope.

Inductive jval := JNum (n : Z) | JStr (s : list Z) | JArr (l : list jval) | JObj (l : list (list Z * jval)).
Definition digit (c : Z) : Prop := 48 <= c <= 57.
Definition value_of (ds : list Z) : Z := fold_left (fun a c => 10 * a + (c - 48)) ds 0.
Definition escape (c : Z) : option Z :=
  if (c =? 34) || (c =? 92) || (c =? 47) then Some c else if c =? 98 then Some 8 else if c =? 102 then Some 12 else if c =? 110 then Some 10 else if c =? 114 then Some 13 else if c =? 116 then Some 9 else None.
(* the rest of a string: text, what it says, what follows *)
Inductive chars : list Z -> list Z -> list Z -> Prop :=
| Ch_end r : chars (34 :: r) [] r
| Ch_char c x s r : 32 <= c -> c <> 34 -> c <> 92 -> chars x s r -> chars (c :: x) (c :: s) r
| Ch_escape c e x s r : escape c = Some e -> chars x s r -> chars (92 :: c :: x) (e :: s) r.
Inductive reads : list Z -> jval -> list Z -> Prop :=
| R_num ds r : ds <> [] -> Forall digit ds -> (hd 0 ds = 48 -> ds = [48]) -> match r with c :: _ => ~ digit c | [] => True end -> reads (ds ++ r) (JNum (value_of ds)) r
| R_str x s r : chars x s r -> reads (34 :: x) (JStr s) r
| R_none r : reads (91 :: 93 :: r) (JArr []) r
| R_arr x l r : items x l r -> reads (91 :: x) (JArr l) r
| R_empty r : reads (123 :: 125 :: r) (JObj []) r
| R_obj x l r : members x l r -> reads (123 :: x) (JObj l) r
with items : list Z -> list jval -> list Z -> Prop :=
| I_last x v r : reads x v (93 :: r) -> items x [v] r
| I_more x v y l r : reads x v (44 :: y) -> items y l r -> items x (v :: l) r
with members : list Z -> list (list Z * jval) -> list Z -> Prop :=
| O_last x k y v r : chars x k (58 :: y) -> reads y v (125 :: r) -> members (34 :: x) [(k, v)] r
| O_more x k y v y' l r : chars x k (58 :: y) -> reads y v (44 :: y') -> members y' l r -> members (34 :: x) ((k, v) :: l) r.
Definition json (x : list Z) (v : jval) : Prop := reads x v [].

Definition name (s : string) : list Z := List.map (fun a => Z.of_nat (nat_of_ascii a)) (list_ascii_of_string s).
(* no quotes, backslashes and control characters *)
Definition plain (x : list Z) : Prop := Forall (fun c => 32 <= c /\ c <> 34 /\ c <> 92) x.
Definition an_int (n : Z) : Prop := 0 <= n < 2147483648.
Definition bytes {A} (x : list A) : Z := Z.of_nat (List.length x).
(* what the documentation has for terms, documents and hits *)
Definition a_term (fast : bool) (t : list Z * Z) : jval :=
  if fast then JArr [JStr (fst t); JNum (snd t)] else JObj [(name "term", JStr (fst t)); (name "frequency", JNum (snd t))].
Definition a_doc (pos fast : bool) (e : Z * Z * list Z) : jval :=
  let '(d, f, ps) := e in
  if fast then JArr ([JNum d; JNum f] ++ if pos then [JArr (map JNum ps)] else [])
  else JObj ([(name "document", JNum d); (name "frequency", JNum f)] ++ if pos then [(name "positions", JArr (map JNum ps))] else []).
Definition a_field (n : list Z) (vs : list (list Z)) : list Z * jval := (n, match vs with [v] => JStr v | _ => JArr (map JStr vs) end).
