(* The strings the library makes: to_s of queries, filters, sorts, documents, fields and explanations, each written into a block
   whose size was reckoned before.  A write outside of the block and a read of a byte never written are undefined (None).

   Simplified: sizes are natural numbers (no string of 2^31 bytes); a symbol is its name, so that comparing pointers is comparing
   names; strings are C strings, bytes other than 0. *)
From Coq Require Import List ZArith Bool Arith.
From Verif Require Import Util.
Import ListNotations.
Open Scope Z_scope.

Definition str := list Z.
(* a block from malloc: None for a byte not written yet *)
Definition block := list (option Z).
Definition alloc (n : nat) : block := repeat None n.
Definition resize (n : nat) (m : block) : block := firstn n m ++ repeat None (n - length m).
Definition store (m : block) (i : nat) (l : str) : option block :=
  if (i + length l <=? length m)%nat then Some (firstn i m ++ map Some l ++ skipn (i + length l) m) else None.
(* the string at an address: strlen, %s and the like read it *)
Fixpoint cstr (m : block) : option str :=
  match m with
  | Some c :: m' => if c =? 0 then Some [] else do s <- cstr m'; Some (c :: s)
  | _ => None
  end.
(* a pointer into a block that goes along while it is filled *)
Definition cur := (block * nat)%type.
Definition app (c : cur) (l : str) : option cur := do m <- store (fst c) (snd c) l; Some (m, (snd c + length l)%nat).
(* `= 0` where the pointer is *)
Definition nul (c : cur) : option cur := do m <- store (fst c) (snd c) [0]; Some (m, snd c).
(* sprintf(p, "%s...") with p += its value *)
Definition print (c : cur) (l : str) : option cur := do c' <- app c l; nul c'.

(* numbers ------------------------------------------------------------------------------------------------------------------- *)

(* what printf makes of a finite number: sign, digits before the point, digits behind it, exponent *)
Record image := mkIm { i_neg : bool; i_int : str; i_frac : str; i_exp : str }.
Definition text (t : image) : str := (if i_neg t then [45] else []) ++ i_int t ++ [46] ++ i_frac t ++ i_exp t.
(* a number by its images under DBL2S = "%#.7g" and "%#.6e" *)
Inductive num := Finite (g e : image) | Infinite | NotANumber.

Definition isdigit (c : Z) : bool := (48 <=? c) && (c <=? 57).
(* strchr(s, 'e'), or the end *)
Fixpoint up_to_e (s : str) : nat :=
  match s with
  | [] => O
  | c :: s' => if c =? 101 then O else S (up_to_e s')
  end.
(* s[i - k], undefined in front of the buffer *)
Definition before (s : str) (i k : nat) : option Z := if (k <=? i)%nat then nth_error s (i - k) else None.
(* global.c:163-165: while (p[-1] == '0' && isdigit(p[-2])) p-- *)
Fixpoint back (s : str) (p : nat) : option nat :=
  do a <- before s p 1;
  if a =? 48 then do b <- before s p 2; if isdigit b then match p with S p' => back s p' | O => None end else Some p
  else Some p.
(* global.c:138-169 dbl_to_s.  For an infinity and for NaN a new string is returned and buf is not touched; all callers look at buf *)
Definition dbl_to_s (m : block) (i : nat) (x : num) : option block :=
  match x with
  | Infinite | NotANumber => Some m
  | Finite g e =>
      do m1 <- store m i (text g ++ [0]);
      let k := up_to_e (text g) in
      do c <- before (text g) k 1;
      do r <- (if isdigit c then Some (m1, text g, k)
               else do m2 <- store m1 i (text e ++ [0]); Some (m2, text e, up_to_e (text e)));
      let '(m2, s, k2) := r in
      do p <- back s k2;
      store m2 (i + p) (skipn k2 s ++ [0])
  end.

(* %d and %ld *)
Fixpoint digits (fuel : nat) (n : Z) : str :=
  match fuel with
  | O => [48 + n]
  | S fuel' => if n <? 10 then [48 + n] else digits fuel' (n / 10) ++ [48 + n mod 10]
  end.
Definition dec (z : Z) : str := if z <? 0 then 45 :: digits 18 (- z) else digits 18 z.

(* global.c:193-256 vstrfmt: a format is its literal bytes and its %s, %f, %d.  Simplified: an int passed for %d is read as a long *)
Inductive piece := Lit (s : str) | Str (s : str) | Num (x : num) | Int (z : Z).
Definition fmt_len (ps : list piece) : nat :=
  fold_right (fun p n => match p with Lit s => length s + n | _ => 2 + n end)%nat O ps.
Definition fmt1 (p : piece) (c : cur) : option cur :=
  match p with
  | Lit s => app c s
  | Str s => app (resize (length (fst c) + length s) (fst c), snd c) s
  | Num x =>
      do c1 <- nul c;
      let m := resize (length (fst c) + 32) (fst c1) in
      do s <- cstr m;
      do m1 <- dbl_to_s m (length s) x;
      do t <- cstr (skipn (length s) m1);
      Some (m1, (length s + length t)%nat)
  | Int z =>
      do c1 <- nul c;
      let m := resize (length (fst c) + 20) (fst c1) in
      do s <- cstr m;
      print (m, length s) (dec z)
  end.
Fixpoint fmt (ps : list piece) (c : cur) : option cur :=
  match ps with
  | [] => nul c
  | p :: ps' => do c' <- fmt1 p c; fmt ps' c'
  end.
Definition strfmt (ps : list piece) : option block := do c <- fmt ps (alloc (fmt_len ps + 1), O); Some (fst c).

(* queries ---------------------------------------------------------------------------------------------------------------------- *)

Inductive occur := Should | Must | MustNot.
(* None for a boost of 1.0, which is not written *)
Definition boost := option num.
Record range := mkRange { r_field : str; r_lower : option str; r_upper : option str; r_incl : bool; r_incu : bool }.
Inductive filter (Q : Type) := RangeF (r : range) | TypedF (r : range) | QueryF (q : Q) | Named (s : str).
Arguments RangeF {Q}. Arguments TypedF {Q}. Arguments QueryF {Q}. Arguments Named {Q}.
Inductive query :=
  | Term (f t : str) (b : boost)
  | Bool (cs : list (occur * query)) (b : boost)
  | Phrase (f : str) (ps : list (Z * list str)) (slop : Z) (b : boost)
  | MultiTerm (f : str) (ts : list (str * boost)) (b : boost)        (* in the order the queue gives them *)
  | Prefix (f p : str) (b : boost)
  | Wild (f p : str) (b : boost)
  | Fuzzy (f t : str) (sim : boost) (b : boost)                      (* None for a similarity of 0.5 *)
  | Range (r : range) (b : boost)
  | Filtered (q : query) (fl : filter query) (b : boost)
  | Const (fl : filter query) (b : boost)
  | All (b : boost)
  | SpanTerm (f t : str)
  | SpanMulti (f : str) (ts : list str)
  | SpanFirst (q : query) (e : Z)
  | SpanOr (qs : list query)
  | SpanNear (qs : list query)
  | SpanNot (i x : query)
  | SpanPrefix (f p : str) (b : boost).

Fixpoint list_eqb (a b : str) : bool :=
  match a, b with
  | [], [] => true
  | x :: a', y :: b' => (x =? y) && list_eqb a' b'
  | _, _ => false
  end.
Definition same (df : option str) (f : str) : bool := match df with Some g => list_eqb g f | None => false end.

(* the `^boost` at the end of most of them: the pointer stands where the 0 is or will be; q_prefix.c:28-31 and others *)
Definition boosted (c : cur) (b : boost) : option block :=
  match b with
  | None => Some (fst c)
  | Some x => do c' <- app c [94]; dbl_to_s (fst c') (snd c') x
  end.

(* q_term.c:265-284 tq_to_s *)
Definition tq_to_s (df : option str) (f t : str) (b : boost) : option block :=
  let c := (alloc (34 + length f + length t), O) in
  do c1 <- (if same df f then Some c else do c' <- app c f; app c' [58]);
  do c2 <- app c1 t;
  do c3 <- nul c2;
  boosted c3 b.

(* q_boolean.c:1432-1437: the buffer doubles until the clause fits; fuel for the loop *)
Fixpoint grow (fuel : nat) (m : block) (bp needed : nat) : option block :=
  if (length m - bp <? needed)%nat
  then match fuel with
       | O => None
       | S fuel' => grow fuel' (resize (2 * length m) m) bp needed
       end
  else Some m.
Definition sign_of (o : occur) : str := match o with MustNot => [45] | Must => [43] | Should => [] end.
(* q_boolean.c:1429-1463: the clauses with their strings; sub: the clause is a BooleanQuery *)
Fixpoint bq_loop (first : bool) (cs : list (occur * bool * str)) (c : cur) : option cur :=
  match cs with
  | [] => Some c
  | (o, sub, s) :: cs' =>
      do m <- grow (snd c + length s + 5) (fst c) (snd c) (length s + 5);
      do c1 <- app (m, snd c) (if first then [] else [32]);
      do c2 <- app c1 (sign_of o);
      do c3 <- app c2 (if sub : bool then [40] else []);
      do c4 <- app c3 s;
      do c5 <- app c4 (if sub then [41] else []);
      bq_loop false cs' c5
  end.
(* q_boolean.c:1418-1475 bq_to_s *)
Definition bq_to_s (cs : list (occur * bool * str)) (b : boost) : option block :=
  do c <- app (alloc 64, O) (match b with None => [] | Some _ => [40] end);
  do c1 <- bq_loop true cs c;
  match b with
  | None => do c2 <- nul c1; Some (fst c2)
  | Some x =>
      do bm <- strfmt [Lit [41; 94]; Num x];
      do bs <- cstr bm;
      do c2 <- app (resize (snd c1 + length bs + 1) (fst c1), snd c1) bs;
      do c3 <- nul c2;
      Some (fst c3)
  end.

(* q_phrase.c:17-29 phrase_pos_cmp *)
Fixpoint strcmp (a b : str) : comparison :=
  match a, b with
  | [], [] => Eq
  | [], _ => Lt
  | _, [] => Gt
  | x :: a', y :: b' => match x ?= y with Eq => strcmp a' b' | r => r end
  end.
Definition pos_le (p q : Z * list str) : bool :=
  if fst p <? fst q then true
  else if fst q <? fst p then false
  else match strcmp (hd [] (snd p)) (hd [] (snd q)) with Gt => false | _ => true end.
(* qsort: glibc's is a merge sort, which keeps the order of equal elements *)
Fixpoint insert (p : Z * list str) (l : list (Z * list str)) : list (Z * list str) :=
  match l with
  | [] => [p]
  | q :: l' => if pos_le p q then p :: l else q :: insert p l'
  end.
Definition sort (l : list (Z * list str)) : list (Z * list str) := fold_right insert [] l.

Definition int (z : Z) : option Z := if (- 2 ^ 31 <=? z) && (z <? 2 ^ 31) then Some z else None.
Fixpoint blanks (n : nat) (c : cur) : option cur :=
  match n with O => Some c | S n' => do c' <- app c [60; 62; 32]; blanks n' c' end.
Fixpoint terms (ts : list str) (c : cur) : option cur :=
  match ts with [] => Some c | t :: ts' => do c1 <- app c t; do c2 <- app c1 [124]; terms ts' c2 end.
(* q_phrase.c:1011-1037 *)
Fixpoint ph_loop (last : Z) (ps : list (Z * list str)) (c : cur) : option cur :=
  match ps with
  | [] => Some c
  | (pos, ts) :: ps' =>
      do c1 <- (if pos =? last
                then do m <- (if (snd c =? 0)%nat then None else store (fst c) (snd c - 1) [38]); Some (m, snd c)
                else do j <- int (pos - 1); blanks (Z.to_nat (j - last)) c);
      do c2 <- terms ts c1;
      do m <- (if (snd c2 =? 0)%nat then None else store (fst c2) (snd c2 - 1) [32]);
      ph_loop pos ps' (m, snd c2)
  end.
(* q_phrase.c:965-1061 phq_to_s *)
Definition phq_to_s (df : option str) (f : str) (ps : list (Z * list str)) (slop : Z) (b : boost) : option block :=
  match ps with
  | [] => strfmt (if same df f then [Lit [34; 34]] else [Str f; Lit [58; 34; 34]])
  | _ =>
      let sps := sort ps in
      let p0 := fst (hd (0, []) sps) in
      do span <- int (fst (last sps (0, [])) - p0);
      do span3 <- int (3 * span);
      do extra <- int (100 + span3);
      let len := fold_right (fun p n => fold_right (fun t k => length t + 5 + k)%nat n (snd p)) (length f + 1)%nat sps in
      let c := (alloc (Z.to_nat (Z.of_nat len + extra)), O) in
      do c1 <- (if same df f then Some c else do c' <- app c f; app c' [58]);
      do c2 <- app c1 [34];
      do last0 <- int (p0 - 1);
      do c3 <- ph_loop last0 sps c2;
      do ch <- (if (snd c3 =? 0)%nat then None else nth_error (fst c3) (snd c3 - 1));
      do c4 <- (match ch with
                | None => None
                | Some x => Some (if x =? 32 then (fst c3, (snd c3 - 1)%nat) else c3)
                end);
      do c5 <- app c4 [34];
      do c6 <- nul c5;
      do c7 <- (if slop =? 0 then Some c6 else print c6 (126 :: dec slop));
      boosted c7 b
  end.

(* q_multi_term.c:527-540 *)
Fixpoint mt_loop (ts : list (str * boost)) (c : cur) : option cur :=
  match ts with
  | [] => Some c
  | (t, b) :: ts' =>
      do c1 <- print c t;
      do c2 <- match b with
               | None => Some c1
               | Some x =>
                   do c' <- app c1 [94];
                   do m <- dbl_to_s (fst c') (snd c') x;
                   do s <- cstr (skipn (snd c') m);
                   Some (m, (snd c' + length s)%nat)
               end;
      do c3 <- app c2 [124];
      mt_loop ts' c3
  end.
(* q_multi_term.c:505-557 multi_tq_to_s *)
Definition multi_tq_to_s (df : option str) (f : str) (ts : list (str * boost)) (b : boost) : option block :=
  let tlen := fold_right (fun t n => length (fst t) + 35 + n)%nat O ts in
  let c := (alloc (tlen + length f + 35), O) in
  do c1 <- (if same df f then Some c else print c (f ++ [58]));
  do c2 <- app c1 [34];
  do c3 <- mt_loop ts c2;
  do ch <- (if (snd c3 =? 0)%nat then None else nth_error (fst c3) (snd c3 - 1));
  do x <- ch;
  let p := if x =? 34 then S (snd c3) else snd c3 in
  do m <- store (fst c3) (p - 1) [34];
  do c4 <- nul (m, p);
  boosted c4 b.

(* q_prefix.c:14-34 prq_to_s, q_span.c:2307-2330 spanprq_to_s *)
Definition prq_to_s (df : option str) (f p : str) (b : boost) : option block :=
  let c := (alloc (length p + length f + 35), O) in
  do c1 <- (if same df f then Some c else print c (f ++ [58]));
  do c2 <- print c1 (p ++ [42]);
  boosted c2 b.
(* q_wildcard.c:14-32 wcq_to_s *)
Definition wcq_to_s (df : option str) (f p : str) (b : boost) : option block :=
  let c := (alloc (length p + length f + 35), O) in
  do c1 <- (if same df f then Some c else print c (f ++ [58]));
  do c2 <- print c1 p;
  boosted c2 b.
(* q_fuzzy.c:152-175 fuzq_to_s *)
Definition fuzq_to_s (df : option str) (f t : str) (sim : boost) (b : boost) : option block :=
  let c := (alloc (length t + length f + 70), O) in
  do c1 <- (if same df f then Some c else print c (f ++ [58]));
  do c2 <- print c1 (t ++ [126]);
  do c3 <- match sim with
           | None => Some c2
           | Some x =>
               do m <- dbl_to_s (fst c2) (snd c2) x;
               do s <- cstr (skipn (snd c2) m);
               Some (m, (snd c2 + length s)%nat)
           end;
  boosted c3 b.

(* q_range.c:21-69 range_to_s *)
Definition range_to_s (df : option str) (r : range) (b : boost) : option block :=
  let len := fun o : option str => match o with Some s => length s | None => O end in
  let c := (alloc (length (r_field r) + len (r_lower r) + len (r_upper r) + 40), O) in
  do c1 <- (if same df (r_field r) then Some c else do c' <- app c (r_field r); app c' [58]);
  do c2 <- match r_lower r with
           | Some l => do c' <- app c1 [if r_incl r then 91 else 123]; app c' l
           | None => app c1 [60]
           end;
  do c3 <- match r_lower r, r_upper r with Some _, Some _ => app c2 [32] | _, _ => Some c2 end;
  do c4 <- match r_upper r with
           | Some u => do c' <- app c3 u; app c' [if r_incu r then 93 else 125]
           | None => app c3 [62]
           end;
  do c5 <- nul c4;
  boosted c5 b.

(* q_span.c:1596-1624 spanmtq_to_s *)
Fixpoint smt_loop (first : bool) (ts : list str) (c : cur) : option cur :=
  match ts with
  | [] => Some c
  | t :: ts' => do c1 <- app c (if first then [] else [44]); do c2 <- print c1 t; smt_loop false ts' c2
  end.
Definition s_span_terms : str := [115; 112; 97; 110; 95; 116; 101; 114; 109; 115; 40].       (* span_terms( *)
Definition spanmtq_to_s (df : option str) (f : str) (ts : list str) : option block :=
  let c := (alloc (fold_right (fun t n => length t + 2 + n)%nat 3%nat ts), O) in
  do c1 <- app c [91];
  do c2 <- smt_loop true ts c1;
  do c3 <- app c2 [93];
  do c4 <- nul c3;
  do s <- cstr (fst c4);
  strfmt (if same df f then [Lit s_span_terms; Str s; Lit [41]] else [Lit s_span_terms; Str f; Lit [58]; Str s; Lit [41]]).
(* q_span.c:1534-1542 spantq_to_s *)
Definition spantq_to_s (df : option str) (f t : str) : option block :=
  strfmt (if same df f then [Lit s_span_terms; Str t; Lit [41]] else [Lit s_span_terms; Str f; Lit [58]; Str t; Lit [41]]).
(* q_span.c:1722-1729 spanfq_to_s *)
Definition s_span_first : str := [115; 112; 97; 110; 95; 102; 105; 114; 115; 116; 40].       (* span_first( *)
Definition spanfq_to_s (s : str) (e : Z) : option block := strfmt [Lit s_span_first; Str s; Lit [44; 32]; Int e; Lit [41]].
(* q_span.c:1811-1836 spanoq_to_s: two bytes more for each clause *)
Definition s_span_or : str := [115; 112; 97; 110; 95; 111; 114; 91].                         (* span_or[ *)
Definition spanoq_to_s (ss : list str) : option block :=
  do c1 <- print (alloc (fold_right (fun s n => length s + 2 + n)%nat 50%nat ss), O) s_span_or;
  do c2 <- smt_loop true ss c1;
  do c3 <- app c2 [93];
  do c4 <- nul c3;
  Some (fst c4).
(* q_span.c:1995-2020 spannq_to_s: no byte for the comma of each clause *)
Definition s_span_near : str := [115; 112; 97; 110; 95; 110; 101; 97; 114; 91].              (* span_near[ *)
Definition spannq_to_s (ss : list str) : option block :=
  do c1 <- print (alloc (fold_right (fun s n => length s + n)%nat 50%nat ss), O) s_span_near;
  do c2 <- smt_loop true ss c1;
  do c3 <- app c2 [93];
  do c4 <- nul c3;
  Some (fst c4).
(* q_span.c:2185-2196 spanxq_to_s *)
Definition s_span_not : str := [115; 112; 97; 110; 95; 110; 111; 116; 40; 105; 110; 99; 58; 60].   (* span_not(inc:< *)
Definition s_exc : str := [62; 44; 32; 101; 120; 99; 58; 60].                                      (* >, exc:< *)
Definition spanxq_to_s (i x : str) : option block := strfmt [Lit s_span_not; Str i; Lit s_exc; Str x; Lit [62; 41]].

(* q_filtered_query.c:167-184 fq_to_s, q_const_score.c:111-126 csq_to_s, q_match_all.c:114-123 maq_to_s *)
Definition s_filtered : str := [70; 105; 108; 116; 101; 114; 101; 100; 81; 117; 101; 114; 121; 40; 113; 117; 101; 114; 121; 58].  (* FilteredQuery(query: *)
Definition s_filter : str := [44; 32; 102; 105; 108; 116; 101; 114; 58].                                                          (* , filter: *)
Definition s_const : str := [67; 111; 110; 115; 116; 97; 110; 116; 83; 99; 111; 114; 101; 40].                                    (* ConstantScore( *)
Definition fq_to_s (q fl : str) (b : boost) : option block :=
  strfmt ([Lit s_filtered; Str q; Lit s_filter; Str fl; Lit [41]] ++ match b with None => [] | Some x => [Lit [94]; Num x] end).
Definition csq_to_s (fl : str) (b : boost) : option block :=
  strfmt ([Lit s_const; Str fl; Lit [41]] ++ match b with None => [] | Some x => [Lit [94]; Num x] end).
Definition estrdup (s : str) : option block := do c <- print (alloc (length s + 1), O) s; Some (fst c).
Definition maq_to_s (b : boost) : option block :=
  match b with None => estrdup [42] | Some x => strfmt [Lit [42; 94]; Num x] end.

(* filters: q_range.c:210-216 rfilt_to_s, 310-316 trfilt_to_s, filter.c:96-103 qfilt_to_s, 22-25 filt_to_s_i; qs: the string of the query *)
Definition s_rangef : str := [82; 97; 110; 103; 101; 70; 105; 108; 116; 101; 114; 60; 32].                                      (* RangeFilter<  *)
Definition s_queryf : str := [81; 117; 101; 114; 121; 70; 105; 108; 116; 101; 114; 60; 32].                                     (* QueryFilter<  *)
Definition s_typed : str := [84; 121; 112; 101; 100].                                                                           (* Typed *)
Definition filter_to_s {Q} (qs : Q -> option block) (fl : filter Q) : option block :=
  match fl with
  | RangeF r => do m <- range_to_s None r None; do s <- cstr m; strfmt [Lit s_rangef; Str s; Lit [32; 62]]
  | TypedF r => do m <- range_to_s None r None; do s <- cstr m; strfmt [Lit (s_typed ++ s_rangef); Str s; Lit [32; 62]]
  | QueryF q => do m <- qs q; do s <- cstr m; strfmt [Lit s_queryf; Str s; Lit [32; 62]]
  | Named s => estrdup s
  end.

Definition is_bool (q : query) : bool := match q with Bool _ _ => true | _ => false end.
(* q->to_s(q, df) *)
Fixpoint q_block (df : option str) (q : query) : option block :=
  match q with
  | Term f t b => tq_to_s df f t b
  | Bool cs b =>
      do ss <- (fix all (l : list (occur * query)) : option (list (occur * bool * str)) :=
                  match l with
                  | [] => Some []
                  | (o, q') :: l' => do m <- q_block df q'; do s <- cstr m; do ss <- all l'; Some ((o, is_bool q', s) :: ss)
                  end) cs;
      bq_to_s ss b
  | Phrase f ps slop b => phq_to_s df f ps slop b
  | MultiTerm f ts b => multi_tq_to_s df f ts b
  | Prefix f p b => prq_to_s df f p b
  | Wild f p b => wcq_to_s df f p b
  | Fuzzy f t sim b => fuzq_to_s df f t sim b
  | Range r b => range_to_s df r b
  | Filtered q' fl b =>
      do fm <- filter_to_s (fun q'' => q_block None q'') fl; do fs <- cstr fm;
      do m <- q_block df q'; do s <- cstr m; fq_to_s s fs b
  | Const fl b => do fm <- filter_to_s (fun q'' => q_block None q'') fl; do fs <- cstr fm; csq_to_s fs b
  | All b => maq_to_s b
  | SpanTerm f t => spantq_to_s df f t
  | SpanMulti f ts => spanmtq_to_s df f ts
  | SpanFirst q' e => do m <- q_block df q'; do s <- cstr m; spanfq_to_s s e
  | SpanOr qs =>
      do ss <- (fix all (l : list query) : option (list str) :=
                  match l with
                  | [] => Some []
                  | q' :: l' => do m <- q_block df q'; do s <- cstr m; do ss <- all l'; Some (s :: ss)
                  end) qs;
      spanoq_to_s ss
  | SpanNear qs =>
      do ss <- (fix all (l : list query) : option (list str) :=
                  match l with
                  | [] => Some []
                  | q' :: l' => do m <- q_block df q'; do s <- cstr m; do ss <- all l'; Some (s :: ss)
                  end) qs;
      spannq_to_s ss
  | SpanNot i x => do m <- q_block df i; do s <- cstr m; do m' <- q_block df x; do s' <- cstr m'; spanxq_to_s s s'
  | SpanPrefix f p b => prq_to_s df f p b
  end.
(* ruby/ext/r_search.c:405-420 frb_q_to_s *)
Definition to_s (df : option str) (q : query) : option str := do m <- q_block df q; cstr m.

(* what the sort in phq_to_s leaves behind in the query *)
Definition after_to_s (q : query) : query :=
  match q with Phrase f (p :: ps) slop b => Phrase f (sort (p :: ps)) slop b | _ => q end.
(* q_phrase.c:1112-1137 phq_eq, with the boosts q_eq compares taken to be equal *)
Definition pos_eqb (p q : Z * list str) : bool :=
  (fst p =? fst q) && (length (snd p) =? length (snd q))%nat && forallb (fun x => list_eqb (fst x) (snd x)) (combine (snd p) (snd q)).
Definition phq_eq (p q : query) : bool :=
  match p, q with
  | Phrase f ps s _, Phrase g qs s' _ =>
      (s =? s') && list_eqb f g && (length ps =? length qs)%nat && forallb (fun x => pos_eqb (fst x) (snd x)) (combine ps qs)
  | _, _ => false
  end.

(* the other strings --------------------------------------------------------------------------------------------------------------- *)

(* ruby/ext/r_search.c:923-950 frb_bc_to_s: rb_str_new(str, len) takes len bytes, with the 0 at the end *)
Definition occur_name (o : occur) : str :=
  match o with
  | Should => [83; 104; 111; 117; 108; 100]
  | Must => [77; 117; 115; 116]
  | MustNot => [77; 117; 115; 116; 32; 78; 111; 116]
  end.
Fixpoint bytes (m : block) : option str :=
  match m with
  | [] => Some []
  | Some c :: m' => do s <- bytes m'; Some (c :: s)
  | None :: _ => None
  end.
Definition bc_to_s (o : occur) (q : query) : option str :=
  do qs <- to_s None q;
  let len := (length (occur_name o) + length qs + 2)%nat in
  do c <- print (alloc len, O) (occur_name o ++ [58] ++ qs);
  bytes (firstn len (fst c)).

(* sort.c:69-110 sort_field_to_s: the name of the type, field or NULL, reverse *)
Definition sort_field_to_s (ty : str) (f : option str) (rev : bool) : option block :=
  match f with
  | Some f => do c <- print (alloc (3 + length f + length ty), O) (f ++ [58] ++ ty ++ (if rev then [33] else [])); Some (fst c)
  | None => do c <- print (alloc (2 + length ty), O) (ty ++ (if rev then [33] else [])); Some (fst c)
  end.
(* sort.c:757-783 sort_to_s *)
Fixpoint sort_loop (ss : list str) (c : cur) : option cur :=
  match ss with [] => Some c | s :: ss' => do c' <- print c (s ++ [44; 32]); sort_loop ss' c' end.
Fixpoint all_str (l : list (option block)) : option (list str) :=
  match l with [] => Some [] | m :: l' => do m' <- m; do s <- cstr m'; do ss <- all_str l'; Some (s :: ss) end.
Definition sort_to_s (fs : list (str * option str * bool)) : option block :=
  do ss <- all_str (map (fun x => sort_field_to_s (fst (fst x)) (snd (fst x)) (snd x)) fs);
  do c1 <- app (alloc (fold_right (fun s n => length s + 2 + n)%nat 20%nat ss), O) [83; 111; 114; 116; 91];
  do c2 <- sort_loop ss c1;
  let p := if (length fs =? 0)%nat then snd c2 else (snd c2 - 2)%nat in
  do c3 <- print (fst c2, p) [93];
  Some (fst c3).

(* document.c:60-92 df_to_s.  Simplified: the values hold no 0 *)
Fixpoint df_loop (first : bool) (vs : list str) (c : cur) : option cur :=
  match vs with
  | [] => Some c
  | v :: vs' =>
      do c1 <- app c (if first then [] else [44; 32]);
      do c2 <- app c1 [34];
      do c3 <- app c2 v;
      do c4 <- app c3 [34];
      df_loop false vs' c4
  end.
Definition df_to_s (name : str) (vs : list str) : option block :=
  let len := fold_right (fun v n => length v + 4 + n)%nat O vs in
  do c1 <- app (alloc (length name + len + 5), O) name;
  do c2 <- app c1 [58; 32];
  do c3 <- app c2 (if (1 <? length vs)%nat then [91] else []);
  do c4 <- df_loop true vs c3;
  do c5 <- app c4 (if (1 <? length vs)%nat then [93] else []);
  do c6 <- nul c5;
  Some (fst c6).
(* document.c:129-148 doc_to_s *)
Fixpoint doc_loop (ss : list str) (c : cur) : option cur :=
  match ss with [] => Some c | s :: ss' => do c' <- print c ([32; 32; 61; 62] ++ s ++ [10]); doc_loop ss' c' end.
Definition s_document : str := [68; 111; 99; 117; 109; 101; 110; 116; 32; 91; 10].   (* Document [ *)
Definition doc_to_s (fs : list (str * list str)) : option block :=
  do ss <- all_str (map (fun x => df_to_s (fst x) (snd x)) fs);
  do c1 <- print (alloc (fold_right (fun s n => length s + 5 + n)%nat O ss + 12), O) s_document;
  do c2 <- doc_loop ss c1;
  Some (fst c2).

(* index.c:506-537 fis_to_s: 120 bytes for each field, whatever the length of its name.  A field is its name, its boost under %f and
   the names of its properties; hd: the text of the defaults *)
Definition s_boost : str := [58; 10; 32; 32; 32; 32; 98; 111; 111; 115; 116; 58; 32].                                       (* : boost:  *)
Definition s_store : str := [10; 32; 32; 32; 32; 115; 116; 111; 114; 101; 58; 32].                                          (* store:  *)
Definition s_index : str := [10; 32; 32; 32; 32; 105; 110; 100; 101; 120; 58; 32].                                          (* index:  *)
Definition s_tv : str := [10; 32; 32; 32; 32; 116; 101; 114; 109; 95; 118; 101; 99; 116; 111; 114; 58; 32].                 (* term_vector:  *)
Record finfo := mkFinfo { fi_name : str; fi_boost : str; fi_store : str; fi_index : str; fi_tv : str }.
Definition fi_line (x : finfo) : str :=
  [32; 32] ++ fi_name x ++ s_boost ++ fi_boost x ++ s_store ++ fi_store x ++ s_index ++ fi_index x ++ s_tv ++ fi_tv x ++ [10].
Fixpoint fis_loop (fs : list finfo) (c : cur) : option cur :=
  match fs with [] => Some c | x :: fs' => do c' <- print c (fi_line x); fis_loop fs' c' end.
Definition fis_to_s (hd : str) (fs : list finfo) : option block :=
  do c1 <- print (alloc (200 + length fs * 120), O) hd;
  do c2 <- fis_loop fs c1;
  Some (fst c2).

(* explanations; search.c:41-57 expl_to_s_depth, global.c:100-108 estrcat *)
Inductive expl := Expl (v : num) (d : str) (ds : list expl).
Definition estrcat (m : block) (s : str) : option block :=
  do s0 <- cstr m;
  do c <- print (resize (length s0 + length s + 3) m, length s0) s;
  Some (fst c).
Fixpoint expl_to_s (depth : nat) (e : expl) : option block :=
  match e with
  | Expl v d ds =>
      do c <- print (alloc (depth * 2 + 1), O) (repeat 32 (depth * 2));
      do fm <- strfmt [Num v; Lit [32; 61; 32]; Str d; Lit [10]];
      do fs <- cstr fm;
      do m <- estrcat (fst c) fs;
      (fix all (l : list expl) (m : block) : option block :=
         match l with
         | [] => Some m
         | e' :: l' => do m' <- expl_to_s (S depth) e'; do s <- cstr m'; do m2 <- estrcat m s; all l' m2
         end) ds m
  end.
(* search.c:59-73 expl_to_html: what estrcat returns is not kept.  moves: whether realloc moves a block when it grows from one size to
   another; then the old address is used after it was freed *)
Definition s_ul : str := [60; 117; 108; 62; 10; 60; 108; 105; 62].                                                          (* <ul> <li> *)
Definition s_li : str := [60; 47; 108; 105; 62; 10].                                                                        (* </li> *)
Definition s_end : str := [60; 47; 117; 108; 62; 10].                                                                       (* </ul> *)
Fixpoint expl_to_html (moves : nat -> nat -> bool) (e : expl) : option block :=
  match e with
  | Expl v d ds =>
      do m <- strfmt [Lit s_ul; Num v; Lit [32; 61; 32]; Str d; Lit s_li];
      do m1 <- (fix all (l : list expl) (m : block) : option block :=
                  match l with
                  | [] => Some m
                  | e' :: l' =>
                      do m' <- expl_to_html moves e'; do s <- cstr m';
                      do m2 <- estrcat m s;
                      if moves (length m) (length m2) then None else all l' m2
                  end) ds m;
      do s <- cstr m1;
      do c <- print (resize (length s + 10) m1, length s) s_end;
      Some (fst c)
  end.
