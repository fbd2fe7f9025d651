(* Model of the lexer of the query parser, c/src/q_parser.y 289-442 (copied unchanged into c/src/q_parser.c).
   A query string is the list of its bytes before the terminating NUL.  Words are kept in two static buffers of 255 bytes, used in turn,
   and words of 255 bytes and more in one dynamic buffer which the next word frees: a semantic value is a reference to a buffer,
   and reading it yields what is in the buffer at that time.
   None: undefined behaviour (a write outside a buffer; a read of a freed one). *)
From Verif Require Import Util.
Open Scope Z_scope.

(* 289-290 *)
Definition special_char : list Z := [38; 58; 40; 41; 91; 93; 123; 125; 33; 34; 126; 94; 124; 60; 62; 61; 42; 63; 43; 45].
Definition not_word : list Z := [32; 9; 40; 41; 91; 93; 123; 125; 33; 34; 126; 94; 124; 60; 62; 61].
Definition memz (c : Z) (l : list Z) : bool := existsb (Z.eqb c) l.
(* c/src/q_parser.c 94-103: the token numbers *)
Definition QWRD : Z := 258.
Definition WILD_STR : Z := 259.
Definition OR : Z := 261.
Definition AND : Z := 262.
Definition NOT : Z := 263.
Definition REQ : Z := 264.
Definition WORD_MAX : nat := 255.

Inductive sref := RBuf (i : bool) | RDyn (g : nat).
(* qstrp, buf_index, buf[0], buf[1], dynbuf; l_gen counts the words, so that a pointer to a dynbuf freed since is seen as such;
   l_cap is strlen(qstr) *)
Record lexer := mkLx { l_str : list Z; l_idx : bool; l_b0 : list Z; l_b1 : list Z; l_dyn : option (list Z); l_gen : nat; l_cap : nat }.
Definition read (x : lexer) (r : sref) : option (list Z) :=
  match r with
  | RBuf false => Some (l_b0 x)
  | RBuf true => Some (l_b1 x)
  | RDyn g => if (g =? l_gen x)%nat then l_dyn x else None
  end.

(* *bufp++ = c for the bytes of l, and 346-353 the change to the dynamic buffer *)
Definition put (buf : list Z) (dyn : bool) (l : list Z) : option (list Z * bool) :=
  if dyn then Some (buf ++ l, true)
  else if (WORD_MAX <? length (buf ++ l))%nat then None
  else Some (buf ++ l, (length (buf ++ l) =? WORD_MAX)%nat).
(* 317-356: the loop of get_word; the word, whether it is in the dynamic buffer, is_wild and the string at qstrp *)
Fixpoint gw (s buf : list Z) (dyn wild : bool) {struct s} : option (list Z * bool * bool * list Z) :=
  match s with
  | [] => Some (buf, dyn, wild, [])
  | c :: s1 =>
      if memz c not_word then Some (buf, dyn, wild, s)
      else if c =? 92 then
        match s1 with
        | [] => do p <- put buf dyn [92]; Some (fst p, snd p, wild, [])
        | c2 :: s2 => do p <- put buf dyn [c2]; gw s2 (fst p) (snd p) wild
        end
      else if c =? 58 then
        match s1 with
        | c2 :: s2 => if c2 =? 58 then do p <- put buf dyn [58; 58]; gw s2 (fst p) (snd p) wild else Some (buf, dyn, wild, s)
        | [] => Some (buf, dyn, wild, s)
        end
      else do p <- put buf dyn [c]; gw s1 (fst p) (snd p) (wild || (c =? 42) || (c =? 63))
  end.
Fixpoint list_eqb (a b : list Z) : bool :=
  match a, b with [], [] => true | x :: a', y :: b' => (x =? y) && list_eqb a' b' | _, _ => false end.
(* 362-369 *)
Definition keyword (w : list Z) : option Z :=
  if list_eqb w [65; 78; 68] then Some AND
  else if list_eqb w [78; 79; 84] then Some NOT
  else if list_eqb w [82; 69; 81] then Some REQ
  else if list_eqb w [79; 82] then Some OR else None.
(* 302-377 get_word; the string is that of l_str, backed up *)
Definition get_word (kw : bool) (x : lexer) (s : list Z) : option (Z * option sref * lexer) :=
  do r <- gw s [] false false;
  let '(w, dyn, wild, rest) := r in
  let set i b := if Bool.eqb (l_idx x) i then (if dyn then firstn WORD_MAX w else w) else b in
  let x' := mkLx rest (negb (l_idx x)) (set false (l_b0 x)) (set true (l_b1 x)) (if dyn then Some w else None) (S (l_gen x)) (l_cap x) in
  match (if kw then keyword w else None) with
  | Some k => Some (k, None, x')
  | None => Some (if wild then WILD_STR else QWRD, Some (if dyn then RDyn (l_gen x') else RBuf (l_idx x)), x')
  end.
(* 410-411 *)
Fixpoint skip_sp (s : list Z) : list Z := match s with c :: s' => if (c =? 32) || (c =? 9) then skip_sp s' else s | [] => [] end.
Definition at_str (x : lexer) (s : list Z) : lexer := mkLx s (l_idx x) (l_b0 x) (l_b1 x) (l_dyn x) (l_gen x) (l_cap x).
(* 406-442 yylex *)
Definition yylex (kw : bool) (x : lexer) : option (Z * option sref * lexer) :=
  match skip_sp (l_str x) with
  | [] => Some (0, None, at_str x [])
  | c :: s =>
      let nc := match s with n :: _ => n | [] => 0 end in
      let ret t := Some (t, @None sref, at_str x s) in
      let ret2 t := Some (t, @None sref, at_str x (tl s)) in
      if memz c special_char then
        if (c =? 45) || (c =? 33) then ret NOT
        else if c =? 43 then ret REQ
        else if c =? 42 then (if nc =? 58 then ret c else get_word kw x (c :: s))
        else if c =? 63 then get_word kw x (c :: s)
        else if c =? 38 then (if nc =? 38 then ret2 AND else get_word kw x (c :: s))
        else if c =? 124 then (if nc =? 124 then ret2 OR else ret c)
        else ret c
      else get_word kw x (c :: s)
  end.
