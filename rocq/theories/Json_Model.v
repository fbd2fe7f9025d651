(* Model of to_json: TermEnum and TermDocEnum (ruby/ext/r_index.c 826-898, 1063-1147), TopDocs (ruby/ext/r_search.c 243-322), json_concat_string (ruby/ext/ferret.c 201-224).
   A buffer is what was written into it so far, its size, and whether jp points into a block that realloc has freed; a write past the end or into a freed block is None.
   Simplified: numbers are not negative and fit into a C int; the sum of sizes does, too. *)
From Coq Require Import String Ascii.
From Verif Require Import Util.
Open Scope Z_scope.

Definition len {A} (x : list A) : Z := Z.of_nat (List.length x).
Definition lit (s : string) : list Z := List.map (fun a => Z.of_nat (nat_of_ascii a)) (list_ascii_of_string s).
Record buf := mkB { b_text : list Z; b_capa : Z; b_gone : bool }.
Definition put (b : buf) (x : list Z) : option buf :=
  if b_gone b then None else if len (b_text b) + len x <=? b_capa b then Some (mkB (b_text b ++ x) (b_capa b) false) else None.
(* sprintf writes a zero byte behind *)
Definition print (b : buf) (x : list Z) : option buf := do _ <- put b (x ++ [0]); put b x.
(* %d of an int that is not negative *)
Fixpoint digits (fuel : nat) (n : Z) : list Z := match fuel with O => [48 + n] | S f => if n <? 10 then [48 + n] else digits f (n / 10) ++ [48 + n mod 10] end.
Definition int_s (n : Z) : list Z := digits 9 n.
(* a C string ends at its first zero byte *)
Fixpoint c_str (x : list Z) : list Z := match x with [] => [] | c :: t => if c =? 0 then [] else c :: c_str t end.
(* ferret.c 208-224 json_concat_string: a double quote gets single quotes around it *)
Definition quoted (x : list Z) : list Z := [34] ++ flat_map (fun c => if c =? 34 then [39; 34; 39] else [c]) (c_str x) ++ [34].
Definition json_concat_string (b : buf) (x : list Z) : option buf := put b (quoted x).
(* if the last byte is a comma, jp-- *)
Definition drop_comma (b : buf) : buf := mkB (if last (b_text b) 0 =? 44 then removelast (b_text b) else b_text b) (b_capa b) (b_gone b).
(* a new string up to the zero byte *)
Definition rb_str_new2 (b : buf) : list Z := c_str (b_text b).

Section MOVES.
  (* whether the block moves when it is made as large as this *)
  Variable moves : Z -> bool.
  (* capa <<= 1; REALLOC_N(json, char, capa): jp stays where it was *)
  Definition grow (b : buf) : buf := mkB (b_text b) (2 * b_capa b) (b_gone b || moves (2 * b_capa b)).
  Definition room (b : buf) (n : Z) : buf := if b_capa b <? n + len (b_text b) + 100 then grow b else b.
  (* r_index.c 860-873, 877-896: a term and the number of its documents *)
  Definition te_next (fast : bool) (b : buf) (t : list Z) (f : Z) : option buf :=
    if fast then
      do b1 <- put b [91];
      let b2 := room b1 (len t * 3) in
      do b3 <- json_concat_string b2 t;
      do b4 <- put b3 [44];
      do b5 <- print b4 (int_s f);
      put b5 [93; 44]
    else
      let b1 := room b (len t * 3) in
      do b2 <- put b1 [123];
      do b3 <- put b2 (lit """term"":");
      do b4 <- json_concat_string b3 t;
      do b5 <- put b4 [44];
      do b6 <- put b5 (lit """frequency"":");
      do b7 <- print b6 (int_s f);
      put b7 [125; 44].
  Fixpoint te_loop (fast : bool) (b : buf) (ts : list (list Z * Z)) : option buf :=
    match ts with [] => Some b | (t, f) :: l => do b1 <- te_next fast b t f; te_loop fast b1 l end.
  (* r_index.c 852-858, 898-905: the text is closed and returned *)
  Definition start : option buf := put (mkB [] 65536 false) [91].
  Definition finish (b : buf) : option (list Z) := do b1 <- put (drop_comma b) [93]; do b2 <- put b1 [0]; Some (rb_str_new2 b2).
  Definition frb_te_to_json (fast : bool) (ts : list (list Z * Z)) : option (list Z) := do b <- start; do b1 <- te_loop fast b ts; finish b1.

  (* r_index.c 1091-1147 frb_tde_to_json: document, frequency, positions; do_positions *)
  Definition tde_format (pos fast : bool) (d f : Z) : list Z :=
    if pos then if fast then [91] ++ int_s d ++ [44] ++ int_s f ++ [44; 91] else lit "{""document"":" ++ int_s d ++ lit ",""frequency"":" ++ int_s f ++ lit ",""positions"":["
    else if fast then [91] ++ int_s d ++ [44] ++ int_s f ++ [93; 44] else lit "{""document"":" ++ int_s d ++ lit ",""frequency"":" ++ int_s f ++ [125; 44].
  Fixpoint tde_positions (b : buf) (ps : list Z) : option buf := match ps with [] => Some b | p :: l => do b1 <- print b (int_s p ++ [44]); tde_positions b1 l end.
  Definition tde_next (pos fast : bool) (b : buf) (d f : Z) (ps : list Z) : option buf :=
    let b1 := room b (f * 20) in
    do b2 <- print b1 (tde_format pos fast d f);
    if pos then do b3 <- tde_positions b2 ps; put (drop_comma b3) [93; if fast then 93 else 125; 44] else Some b2.
  Fixpoint tde_loop (pos fast : bool) (b : buf) (es : list (Z * Z * list Z)) : option buf :=
    match es with [] => Some b | (d, f, ps) :: l => do b1 <- tde_next pos fast b d f ps; tde_loop pos fast b1 l end.
  Definition frb_tde_to_json (pos fast : bool) (es : list (Z * Z * list Z)) : option (list Z) := do b <- start; do b1 <- tde_loop pos fast b es; finish b1.
End MOVES.

(* a lazy field: its name, and for each of its values the number of bytes stored and the text *)
Record lazy_df := mkLdf { l_name : list Z; l_data : list (Z * list Z) }.
(* c/src/index.c 1646-1651 fr_get_lazy_doc: the bytes of a field with one between each two *)
Definition l_len (f : lazy_df) : Z := fold_right (fun d n => 1 + fst d + n) 0 (l_data f) - 1.
Definition l_need (f : lazy_df) : Z := len (l_name f) + l_len f * 3 + 100 + 4 * len (l_data f).
(* while len > slen: slen <<= 1 *)
Fixpoint twice (fuel : nat) (n slen : Z) : Z := match fuel with O => slen | S f => if slen <? n then twice f n (2 * slen) else slen end.
Fixpoint td_values (b : buf) (first : bool) (ds : list (Z * list Z)) : option buf :=
  match ds with [] => Some b | d :: l => do b1 <- (if first then Some b else put b [44]); do b2 <- json_concat_string b1 (snd d); td_values b2 false l end.
Definition td_field (b : buf) (first : bool) (f : lazy_df) : option buf :=
  do b1 <- (if first then Some b else put b [44]);
  do b2 <- put b1 [34];
  do b3 <- put b2 (l_name f);
  do b4 <- put b3 [34; 58];
  do b5 <- (if 1 <? len (l_data f) then put b4 [91] else Some b4);
  do b6 <- td_values b5 true (l_data f);
  if 1 <? len (l_data f) then put b6 [93] else Some b6.
Fixpoint td_fields (b : buf) (first : bool) (fs : list lazy_df) : option buf := match fs with [] => Some b | f :: l => do b1 <- td_field b first f; td_fields b1 false l end.
(* r_search.c 243-285 frb_lzd_load_to_json *)
Definition frb_lzd_load_to_json (b : buf) (fs : list lazy_df) : option buf :=
  let n := fold_right (fun f n => l_need f + n) 0 fs + len (b_text b) in
  td_fields (if b_capa b <? n then mkB (b_text b) (twice (Z.to_nat n) n (b_capa b)) (b_gone b) else b) true fs.
(* r_search.c 294-322 frb_td_to_json *)
Fixpoint td_docs (b : buf) (first : bool) (docs : list (list lazy_df)) : option buf :=
  match docs with
  | [] => Some b
  | fs :: l => do b1 <- (if first then Some b else put b [44]); do b2 <- put b1 [123]; do b3 <- frb_lzd_load_to_json b2 fs; do b4 <- put b3 [125]; td_docs b4 false l
  end.
Definition frb_td_to_json (docs : list (list lazy_df)) : option (list Z) :=
  do b <- put (mkB [] 32768 false) [91]; do b1 <- td_docs b true docs; do b2 <- put b1 [93]; do b3 <- put b2 [0]; Some (rb_str_new2 b3).
