(* Model of the query parser: the tables and the engine that bison generated, c/src/q_parser.c 472-2030, with the semantic actions of
   c/src/q_parser.y 225-286, and qp_parse, c/src/q_parser.y 1314-1365.
   Where an exception leaves an action of a rule (not get_phrase_q, whose variable is volatile) the pointer that FLDS releases is the value of the
   first symbol, no query: undefined behaviour.
   The stack of the parser grows to YYMAXDEPTH elements; allocation does not fail.  The grammar has no rule for errors, so yyerrlab1
   (1930-1956) removes all states. *)
From Verif Require Import Util QpLex_Model QpAct_Model QpClean_Model.
Open Scope Z_scope.

(* q_parser.c 494 *)
Definition yytranslate : list Z :=
  [0; 2; 2; 2; 2; 2; 2; 2; 2; 2; 2; 2; 2; 2; 2; 2; 2; 2; 2; 2; 2; 2; 2; 2; 2; 2; 2; 2; 2; 2; 2; 2; 2; 2; 18; 2; 2; 2; 2; 2; 13; 14; 16; 2; 2; 2; 2; 2; 2;
   2; 2; 2; 2; 2; 2; 2; 2; 2; 10; 2; 19; 25; 20; 2; 2; 2; 2; 2; 2; 2; 2; 2; 2; 2; 2; 2; 2; 2; 2; 2; 2; 2; 2; 2; 2; 2; 2; 2; 2; 2; 2; 21; 2; 22; 12; 2; 2;
   2; 2; 2; 2; 2; 2; 2; 2; 2; 2; 2; 2; 2; 2; 2; 2; 2; 2; 2; 2; 2; 2; 2; 2; 2; 2; 24; 17; 23; 15; 2; 2; 2; 2; 2; 2; 2; 2; 2; 2; 2; 2; 2; 2; 2; 2; 2; 2; 2;
   2; 2; 2; 2; 2; 2; 2; 2; 2; 2; 2; 2; 2; 2; 2; 2; 2; 2; 2; 2; 2; 2; 2; 2; 2; 2; 2; 2; 2; 2; 2; 2; 2; 2; 2; 2; 2; 2; 2; 2; 2; 2; 2; 2; 2; 2; 2; 2; 2; 2;
   2; 2; 2; 2; 2; 2; 2; 2; 2; 2; 2; 2; 2; 2; 2; 2; 2; 2; 2; 2; 2; 2; 2; 2; 2; 2; 2; 2; 2; 2; 2; 2; 2; 2; 2; 2; 2; 2; 2; 2; 2; 2; 2; 2; 2; 2; 2; 2; 2; 2;
   2; 2; 2; 2; 2; 2; 2; 2; 2; 2; 1; 2; 3; 4; 5; 6; 7; 8; 9; 11].
(* q_parser.c 597 *)
Definition yyr1 : list Z :=
  [0; 26; 27; 27; 28; 28; 28; 28; 29; 29; 29; 30; 30; 31; 31; 31; 31; 31; 31; 31; 32; 32; 32; 33; 35; 34; 36; 37; 34; 38; 38; 39; 39; 39; 39; 40; 40; 40;
   40; 40; 41; 41; 41; 41; 41; 41; 41; 41; 41; 41; 41; 41].
(* q_parser.c 608 *)
Definition yyr2 : list Z :=
  [0; 2; 0; 1; 1; 3; 3; 2; 2; 2; 1; 1; 3; 1; 2; 3; 1; 1; 1; 1; 1; 3; 2; 1; 0; 4; 0; 0; 5; 1; 3; 3; 5; 2; 4; 1; 2; 2; 3; 3; 4; 4; 4; 4; 3; 3; 3; 3; 2; 3;
   3; 2].
(* q_parser.c 621 *)
Definition yydefact : list Z :=
  [2; 20; 23; 0; 0; 0; 26; 0; 0; 0; 0; 0; 0; 3; 4; 10; 11; 13; 19; 16; 0; 17; 18; 22; 9; 8; 14; 0; 0; 35; 33; 0; 0; 48; 0; 51; 0; 0; 0; 1; 0; 0; 7; 0; 0;
   0; 21; 15; 0; 0; 36; 37; 0; 31; 0; 45; 44; 49; 50; 0; 46; 0; 47; 6; 5; 12; 24; 30; 27; 34; 39; 0; 38; 40; 41; 42; 43; 25; 28; 32].
(* q_parser.c 634 *)
Definition yydefgoto : list Z :=
  [-1; 12; 13; 14; 15; 16; 17; 18; 19; 77; 28; 78; 20; 21; 32; 22].
(* q_parser.c 643 *)
Definition yypact : list Z :=
  [83; -4; -30; 102; 102; 64; -30; 7; -2; -1; 6; 15; 31; 45; -30; -30; 29; -30; -30; -30; -5; -30; -30; 40; -30; -30; -30; 26; 47; -30; 55; 42; 19; -15;
   68; -30; 71; 0; 1; -30; 83; 83; -30; 72; 102; 73; -30; -30; 102; 76; -30; -30; 78; 74; 70; -30; -30; -30; -30; -6; -30; 33; -30; -30; -30; -30; -30;
   -30; -30; -30; -30; 90; -30; -30; -30; -30; -30; -30; -30; -30].
(* q_parser.c 656 *)
Definition yypgoto : list Z :=
  [-30; -30; 89; -13; 56; -29; -30; -30; -30; -30; -30; -30; -30; -30; -30; -30].
(* q_parser.c 667 *)
Definition yytable : list Z :=
  [42; 33; 35; 59; 61; 44; -29; 55; 56; 37; 29; 23; 45; -29; 42; 66; 73; 74; 38; 68; 60; 62; 51; 34; 36; 30; 31; 63; 64; 1; 2; 39; 40; 41; 3; 4; 52; 53;
   54; 5; 47; 43; 6; 46; 7; 8; 9; 10; 1; 2; 11; 40; 41; 3; 4; 75; 76; 48; 5; 24; 25; 6; 50; 7; 8; 9; 10; 1; 2; 11; 49; 57; 3; 4; 58; 65; 67; 5; 26; 69;
   6; 70; 7; 8; 9; 10; 1; 2; 11; 71; 72; 3; 4; 79; 27; 0; 5; 0; 0; 6; 0; 7; 8; 9; 10; 1; 2; 11; 0; 0; 0; 0; 0; 0; 0; 5; 0; 0; 6; 0; 7; 8; 9; 10; 0; 0; 11].
(* q_parser.c 684 *)
Definition yycheck : list Z :=
  [13; 3; 3; 3; 3; 10; 10; 22; 23; 3; 3; 15; 17; 17; 27; 44; 22; 23; 3; 48; 20; 20; 3; 25; 25; 18; 19; 40; 41; 3; 4; 0; 6; 7; 8; 9; 17; 18; 19; 13; 14;
   12; 16; 3; 18; 19; 20; 21; 3; 4; 24; 6; 7; 8; 9; 22; 23; 10; 13; 3; 4; 16; 20; 18; 19; 20; 21; 3; 4; 24; 15; 3; 8; 9; 3; 3; 3; 13; 14; 3; 16; 3; 18;
   19; 20; 21; 3; 4; 24; 15; 20; 8; 9; 3; 5; -1; 13; -1; -1; 16; -1; 18; 19; 20; 21; 3; 4; 24; -1; -1; -1; -1; -1; -1; -1; 13; -1; -1; 16; -1; 18; 19;
   20; 21; -1; -1; 24].
(* 472-478, 491, 642, 666, 983 *)
Definition YYFINAL : Z := 39.
Definition YYLAST : Z := 126.
Definition YYNTOKENS : Z := 26.
Definition YYNINF : Z := -30.
Definition YYMAXDEPTH : nat := Z.to_nat 10000.
Definition at_ (l : list Z) (i : Z) : Z := nth (Z.to_nat i) l 0.
Definition translate (c : Z) : Z := if (0 <=? c) && (c <=? 265) then at_ yytranslate c else 2.

(* 1497-1535: what to do in a state, with the look-ahead token if the state needs one *)
Inductive action := Shift (s : Z) | Reduce (r : Z) | Accept | Error.
Definition needs_la (s : Z) : bool := negb (at_ yypact s =? YYNINF).
Definition default (s : Z) : action := let r := at_ yydefact s in if r =? 0 then Error else Reduce r.
Definition decide (s tok : Z) : action :=
  let n := at_ yypact s + tok in
  if (n <? 0) || (YYLAST <? n) || negb (at_ yycheck n =? tok) then default s
  else let t := at_ yytable n in
       if t <=? 0 then (if (t =? 0) || (t =? YYNINF) then Error else Reduce (- t))
       else if t =? YYFINAL then Accept else Shift t.
(* 1825-1831 *)
Definition goto (p nt : Z) : Z :=
  let i := at_ yypgoto (nt - YYNTOKENS) + p in
  if (0 <=? i) && (i <=? YYLAST) && (at_ yycheck i =? p) then at_ yytable i else at_ yydefgoto (nt - YYNTOKENS).

(* semantic values *)
Inductive val := VNone | VStr (r : sref) | VQ (q : option qry) | VCls (c : option (occ * qry)) | VBca (l : list (occ * qry)) | VPh (p : phrase).
Inductive ares := AOk (v : val) (w : world) | AAbort (w : world) | AUb.

Section PARSE.
  Variable cf : qconf.
  Section ACTIONS.
    Variable x : lexer.
    Variable w : world.
    Definition str (v : val) : option (list Z) := match v with VStr r => read x r | _ => None end.
    (* T ... E: 198-205 *)
    Definition te (v : val) (w' : world) : ares := if w_des w' then AAbort w' else AOk v w'.
    (* FLDS(...); Y *)
    Definition fy (r : fres) : ares :=
      match r with
      | FOk q => if w_des w then AAbort w else AOk (VQ q) w
      | FRaise _ => AUb
      | FUb => AUb
      end.
    (* 1034-1040 get_phrase_q *)
    Definition fp (r : fres) : ares :=
      match r with
      | FOk q => AOk (VQ (if w_des w then None else q)) w
      | FRaise _ => AOk (VQ None) (set_des w)
      | FUb => AUb
      end.
    Definition simple (f : list Z -> option (option qry)) : list Z -> unit -> gres unit :=
      fun fd _ => match f fd with Some q => GOk q tt | None => GUb end.
    Definition on_str (v : val) (k : list Z -> ares) : ares := match str v with Some s => k s | None => AUb end.
    Definition on_opt (v : option val) (k : option (list Z) -> ares) : ares := match v with None => k None | Some y => on_str y (fun s => k (Some s)) end.
    Definition range_act (from to : option val) (il iu : bool) : ares :=
      on_opt from (fun a => on_opt to (fun b => fy (flds cf (get_r_q cf (l_cap x) il iu) (w_cur w) (a, b)))).
    Definition phrase_act (p : phrase) (slop : option val) : ares :=
      on_opt slop (fun s => fp (flds cf (get_phrase_query cf s) (w_cur w) p)).
    Definition fields_act (o : option world) : ares := match o with Some w' => AOk VNone w' | None => AUb end.

    (* q_parser.y 226-285: the rules, by their numbers; vs are $1, $2, ... *)
    Definition act (r : Z) (vs : list val) : ares :=
      match r, vs with
      | 2, [] => AOk (VQ None) (set_res w None)
      | 3, [VBca l] => te (VQ (get_bool_q l)) (set_res w (get_bool_q l))
      | 4, [VCls c] => te (VBca (first_cls c)) w
      | 5, [VBca l; _; VCls c] => te (VBca (add_and_cls l c)) w
      | 6, [VBca l; _; VCls c] => te (VBca (add_or_cls l c)) w
      | 7, [VBca l; VCls c] => te (VBca (add_default_cls cf l c)) w
      | 8, [_; VQ q] => te (VCls (get_bool_cls q Must)) w
      | 9, [_; VQ q] => te (VCls (get_bool_cls q MustNot)) w
      | 10, [VQ q] => te (VCls (get_bool_cls q Should)) w
      | 11, [v] => AOk v w
      | 12, [VQ None; _; _] => te (VQ None) w
      | 12, [VQ q; _; s] => on_str s (fun b => te (VQ (set_boost cf q b)) w)
      | 13, [v] => AOk v w
      | 14, [_; _] => te (VQ (Some (q_new (NBool true (q_max cf) [])))) w
      | 15, [_; VBca l; _] => te (VQ (get_bool_q l)) w
      | 16, [v] => AOk v w
      | 17, [v] => AOk v w
      | 18, [v] => AOk v w
      | 19, [v] => AOk v w
      | 20, [s] => on_str s (fun b => fy (flds cf (simple (fun f => get_term_q cf f b)) (w_cur w) tt))
      | 21, [s; _; t] => on_str s (fun b => on_str t (fun c => fy (flds cf (simple (fun f => get_fuzzy_q cf f b (Some c))) (w_cur w) tt)))
      | 22, [s; _] => on_str s (fun b => fy (flds cf (simple (fun f => get_fuzzy_q cf f b None)) (w_cur w) tt))
      | 23, [s] => on_str s (fun b => fy (flds cf (get_wild_q cf (l_cap x)) (w_cur w) b))
      | 24, [] => AOk VNone (pop_fields w)
      | 25, [_; _; v; _] => AOk v w
      | 26, [] => AOk VNone (push_fields w (Some (q_all cf)))
      | 27, [] => AOk VNone (pop_fields w)
      | 28, [_; _; _; v; _] => AOk v w
      | 29, [s] => on_str s (fun b => fields_act (first_field cf w b))
      | 30, [_; _; s] => on_str s (fun b => fields_act (add_field cf w b))
      | 31, [_; VPh p; _] => phrase_act p None
      | 32, [_; VPh p; _; _; s] => phrase_act p (Some s)
      | 33, [_; _] => AOk (VQ None) w
      | 34, [_; _; _; _] => AOk (VQ None) w
      | 35, [s] => on_str s (fun b => AOk (VPh (ph_first_word (Some b))) w)
      | 36, [_; _] => AOk (VPh (ph_first_word None)) w
      | 37, [VPh p; s] => on_str s (fun b => AOk (VPh (ph_add_word p (Some b))) w)
      | 38, [VPh p; _; _] => AOk (VPh (ph_add_word p None)) w
      | 39, [VPh p; _; s] => on_str s (fun b => match ph_add_multi_word p b with Some p' => AOk (VPh p') w | None => AUb end)
      | 40, [_; a; b; _] => range_act (Some a) (Some b) true true
      | 41, [_; a; b; _] => range_act (Some a) (Some b) true false
      | 42, [_; a; b; _] => range_act (Some a) (Some b) false true
      | 43, [_; a; b; _] => range_act (Some a) (Some b) false false
      | 44, [_; b; _] => range_act None (Some b) false false
      | 45, [_; b; _] => range_act None (Some b) false true
      | 46, [_; a; _] => range_act (Some a) None true false
      | 47, [_; a; _] => range_act (Some a) None false false
      | 48, [_; b] => range_act None (Some b) false false
      | 49, [_; _; b] => range_act None (Some b) false true
      | 50, [_; _; a] => range_act (Some a) None true false
      | 51, [_; a] => range_act (Some a) None false false
      | _, _ => AUb
      end.
  End ACTIONS.

  (* the states with their values from the top, the look-ahead token, the lexer *)
  Record conf := mkC { c_stk : list (Z * val); c_la : option (Z * val); c_lx : lexer; c_w : world }.
  (* how yyparse ends: 0; not 0 after yyerror; not 0 from an action (yyerrorlab); undefined behaviour *)
  Inductive outcome := OAcc (w : world) (x : lexer) | ORej (w : world) (x : lexer) | OAbort (w : world) (x : lexer) | OUb.

  (* 1410-1479: a new state on the stack *)
  Definition push (stk : list (Z * val)) (s : Z) (v : val) (la : option (Z * val)) (x : lexer) (w : world) : conf + outcome :=
    if (YYMAXDEPTH <=? S (length stk))%nat then inr (ORej (yyerror w) x) else inl (mkC ((s, v) :: stk) la x w).
  (* 1569-1833 *)
  Definition reduce (r : Z) (stk : list (Z * val)) (la : option (Z * val)) (x : lexer) (w : world) : conf + outcome :=
    let n := Z.to_nat (at_ yyr2 r) in
    if (length stk <=? n)%nat then inr OUb
    else match act x w r (rev (map snd (firstn n stk))) with
         | AOk v w' => let stk' := skipn n stk in push stk' (goto (fst (hd (0, VNone) stk')) (at_ yyr1 r)) v la x w'
         | AAbort w' => inr (OAbort w' x)
         | AUb => inr OUb
         end.
  (* 1491-1562 *)
  Definition step_la (stk : list (Z * val)) (tok : Z) (v : val) (x : lexer) (w : world) : conf + outcome :=
    match decide (fst (hd (0, VNone) stk)) tok with
    | Shift s => push stk s v (if tok =? 0 then Some (tok, v) else None) x w
    | Reduce r => reduce r stk (Some (tok, v)) x w
    | Accept => inr (OAcc w x)
    | Error => inr (ORej (yyerror w) x)
    end.
  Definition val_of (r : option sref) : val := match r with Some s => VStr s | None => VNone end.
  Definition step (c : conf) : conf + outcome :=
    let s := fst (hd (0, VNone) (c_stk c)) in
    if needs_la s then
      match c_la c with
      | Some (tok, v) => step_la (c_stk c) tok v (c_lx c) (c_w c)
      | None => match yylex (q_kw cf) (c_lx c) with
                | Some (t, r, x') => step_la (c_stk c) (translate t) (val_of r) x' (c_w c)
                | None => inr OUb
                end
      end
    else match default s with
         | Reduce r => reduce r (c_stk c) (c_la c) (c_lx c) (c_w c)
         | _ => inr (ORej (yyerror (c_w c)) (c_lx c))
         end.
  Fixpoint run (fuel : nat) (c : conf) : option outcome :=
    match fuel with
    | O => None
    | S k => match step c with inl c' => run k c' | inr o => Some o end
    end.
  Definition yyparse (fuel : nat) (x : lexer) (w : world) : option outcome := run fuel (mkC [(0, VNone)] None x w).

  (* ---------- qp_parse *)
  (* what a QParser keeps between two calls: the buffers of the lexer and the stack of fields *)
  Record qparser := mkQp { p_idx : bool; p_b0 : list Z; p_b1 : list Z; p_dyn : option (list Z); p_gen : nat; p_fs : list (option (list (list Z))) }.
  (* a query; an exception; undefined behaviour or a failed assertion *)
  Inductive answer := AnsQ (q : qry) | AnsRaise | AnsUb.
  Definition keep (x : lexer) (w : world) : qparser := mkQp (l_idx x) (l_b0 x) (l_b1 x) (l_dyn x) (l_gen x) (w_fs w).
  (* 1348-1364 *)
  Definition finish (q : option qry) (des : bool) (x : lexer) (w : world) : answer * qparser :=
    if des && negb (q_handle cf) then (AnsRaise, keep x w)
    else (AnsQ (match q with Some q' => q' | None => bq_new [] end), keep x w).
  (* 1314-1321 qp_get_bad_query; with recovering the query is kept if a clause is one too many *)
  Definition bad_query (qstr : list Z) (w : world) (x : lexer) : answer * qparser :=
    match w_fs w with
    | [_] => match flds cf (simple (fun f => get_term_q cf f qstr)) (w_cur w) tt with
             | FOk q => finish q false x w
             | FRaise q => finish q true x w
             | FUb => (AnsUb, keep x w)
             end
    | _ => (AnsUb, keep x w)
    end.
  Definition conclude (qstr : list Z) (q : option qry) (x : lexer) (w : world) : answer * qparser :=
    match q with
    | Some _ => finish q (w_des w) x w
    | None => if q_handle cf then bad_query qstr w x else finish None (w_des w) x w
    end.
  (* 1330-1365 *)
  Definition qp_parse (fuel : nat) (p : qparser) (qstr0 : list Z) : option (answer * qparser) :=
    match p_fs p with
    | [_] =>
        let qstr := if q_clean cf then clean_str qstr0 else qstr0 in
        let x := mkLx qstr (p_idx p) (p_b0 p) (p_b1 p) (p_dyn p) (p_gen p) (length qstr) in
        do o <- yyparse fuel x (mkW (p_fs p) (Some (q_def cf)) false None);
        Some (match o with
              | OAcc w' x' => conclude qstr (w_res w') x' w'
              | ORej w' x' => conclude qstr None x' w'
              | OAbort w' x' => conclude qstr None x' w'
              | OUb => (AnsUb, p)
              end)
    | _ => Some (AnsUb, p)
    end.
  (* q_parser.y 1150-1175 qp_new, as far as it is kept; b: what the bottom of the stack refers to *)
  Definition qp_new : qparser := mkQp false [] [] None O [q_bot cf].
End PARSE.
