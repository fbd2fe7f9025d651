(* Model of the file names and of the commit descriptor ("segments" file) of c/src/index.c.
   File names and strings are lists of bytes without the terminating 0. *)
From Coq Require Import Ascii String.
From Verif Require Import Util Codec_Model.
Open Scope Z_scope.

(* a C string literal *)
Fixpoint str (s : string) : list Z :=
  match s with EmptyString => [] | String c t => Z.of_nat (nat_of_ascii c) :: str t end.
Definition beqb (a b : list Z) : bool := if list_eq_dec Z.eq_dec a b then true else false.

(* ---------- names *)
Definition SEGMENT_NAME_MAX_LENGTH : nat := 100.
Definition US : Z := 95. (* '_' *)
Definition DOT : Z := 46. (* '.' *)
(* index.c:59 BASE36_DIGITMAP *)
Definition digit36 (d : Z) : Z := if d <? 10 then 48 + d else 97 + (d - 10).
(* index.c:61-77 u64_to_str36: n cells are left in front of the text written so far; None is the exception *)
Fixpoint str36_loop (n : nat) (u : Z) (acc : list Z) : option (list Z) :=
  match n with
  | O => None
  | S n' => let acc' := digit36 (u mod 36) :: acc in
            if u / 36 =? 0 then Some acc' else str36_loop n' (u / 36) acc'
  end.
Definition u64_to_str36 (buf_size : nat) (u : Z) : option (list Z) := str36_loop (buf_size - 1) u [].
(* index.c:79-95 str36_to_u64, wrapping at 64 bits; stops at the first other character *)
Fixpoint str36_from (u : Z) (p : list Z) : Z :=
  match p with
  | c :: t => if (48 <=? c) && (c <=? 57) then str36_from ((u * 36 + (c - 48)) mod 2 ^ 64) t
              else if (97 <=? c) && (c <=? 122) then str36_from ((u * 36 + (c - 97) + 10) mod 2 ^ 64) t
              else u
  | [] => u
  end.
Definition str36_to_u64 (p : list Z) : Z := str36_from 0 p.
(* index.c:108-127 fn_for_generation with an extension; the outer None is NULL (generation -1), the inner the exception *)
Definition fn_for_generation (base ext : list Z) (gen : Z) : option (option (list Z)) :=
  if gen =? -1 then None
  else Some (do u <- u64_to_str36 SEGMENT_NAME_MAX_LENGTH (gen mod 2 ^ 64); Some (base ++ [US] ++ u ++ [DOT] ++ ext)).
(* index.c:129-135 segfn_for_generation *)
Definition segfn_for_generation (gen : Z) : option (list Z) :=
  do u <- u64_to_str36 SEGMENT_NAME_MAX_LENGTH (gen mod 2 ^ 64); Some (str "segments_" ++ u).
(* sprintf "%d" of a non-negative int *)
Fixpoint dec_loop10 (n : nat) (u : Z) (acc : list Z) : list Z :=
  match n with
  | O => acc
  | S n' => let acc' := 48 + u mod 10 :: acc in if u / 10 =? 0 then acc' else dec_loop10 n' (u / 10) acc'
  end.
Definition str10 (u : Z) : list Z := dec_loop10 10 u [].
(* index.c:149-167 fn_for_gen_field, generation not -1 *)
Definition fn_for_gen_field (base ext : list Z) (gen num : Z) : option (list Z) :=
  do u <- u64_to_str36 SEGMENT_NAME_MAX_LENGTH (gen mod 2 ^ 64); Some (base ++ [US] ++ u ++ [DOT] ++ ext ++ str10 num).
(* index.c:725-732 new_segment *)
Definition new_segment (counter : Z) : option (list Z) :=
  do u <- u64_to_str36 (SEGMENT_NAME_MAX_LENGTH - 1) (counter mod 2 ^ 64); Some (US :: u).
(* strrchr(s, c) + 1 *)
Fixpoint after_last (c : Z) (s : list Z) : option (list Z) :=
  match s with
  | [] => None
  | x :: t => match after_last c t with Some r => Some r | None => if x =? c then Some t else None end
  end.
Definition prefixb (p s : list Z) : bool := beqb p (firstn (length p) s).
(* index.c:747-757 which_gen_i (strncmp with sizeof("segments") = 9 characters) *)
Definition which_gen (max : Z) (fn : list Z) : Z :=
  if prefixb (str "segments_") fn then
    match after_last US fn with
    | Some p => let g := to_signed 64 (str36_to_u64 p) in if g >? max then g else max
    | None => max
    end
  else max.
(* index.c:797-802 sis_current_segment_generation *)
Definition current_generation (names : list (list Z)) : Z := fold_left which_gen names (-1).

(* ---------- the commit descriptor *)
Record field_info := mkFi { fi_name : list Z; fi_boost : Z; fi_bits : Z }.
Record field_infos := mkFis { fis_store : Z; fis_index : Z; fis_tv : Z; fis_fields : list field_info }.
Record seg_info := mkSi { si_name : list Z; si_doc_cnt : Z; si_del_gen : Z; si_norm_gens : list Z; si_cfs : bool }.
Record seg_infos := mkSis { sis_format : Z; sis_version : Z; sis_counter : Z; sis_segs : list seg_info; sis_fis : field_infos }.

(* writing an int with os_write_vint (parameter unsigned int) *)
Definition enc_int (n : Z) : option (list Z) := enc_vint (n mod 2 ^ 32).
Fixpoint enc_list {A} (f : A -> option (list Z)) (l : list A) : option (list Z) :=
  match l with [] => Some [] | x :: t => do a <- f x; do b <- enc_list f t; Some (a ++ b) end.
(* index.c:604-617 si_write; norm generations from the last field to the first *)
Definition enc_si (s : seg_info) : option (list Z) :=
  do a <- enc_str (si_name s);
  do b <- enc_int (si_doc_cnt s);
  do c <- enc_int (si_del_gen s);
  do d <- enc_int (Z.of_nat (length (si_norm_gens s)));
  do e <- enc_list enc_int (rev (si_norm_gens s));
  Some (a ++ b ++ c ++ d ++ e ++ [if si_cfs s then 1 else 0]).
(* index.c:448-465 fis_write *)
Definition enc_fi (f : field_info) : option (list Z) :=
  do a <- enc_str (fi_name f); do b <- enc_int (fi_bits f); Some (a ++ enc_32 (fi_boost f) ++ b).
Definition enc_fis (f : field_infos) : option (list Z) :=
  do a <- enc_int (fis_store f);
  do b <- enc_int (fis_index f);
  do c <- enc_int (fis_tv f);
  do d <- enc_int (Z.of_nat (length (fis_fields f)));
  do e <- enc_list enc_fi (fis_fields f);
  Some (a ++ b ++ c ++ d ++ e).
(* index.c:1137-1149 the body of sis_write; FORMAT is 0, the version has been incremented by the caller *)
Definition enc_sis (s : seg_infos) : option (list Z) :=
  do d <- enc_int (Z.of_nat (length (sis_segs s)));
  do e <- enc_list enc_si (sis_segs s);
  do f <- enc_fis (sis_fis s);
  Some (enc_32 0 ++ enc_64 (sis_version s) ++ enc_64 (sis_counter s) ++ d ++ e ++ f).

(* Outcome of reading a descriptor: PEof is EOF_ERROR, PArg another exception (ARG_ERROR), PUB undefined behaviour. *)
Inductive pr (A : Type) : Type := POk : A -> list Z -> pr A | PEof : pr A | PArg : pr A | PUB : pr A.
Arguments POk {A}. Arguments PEof {A}. Arguments PArg {A}. Arguments PUB {A}.
Definition parser A := list Z -> pr A.
Definition lift {A} (f : list Z -> rd A) : parser A := fun bs => match f bs with ROk a t => POk a t | REof => PEof | RUB => PUB end.
Definition pbind {A B} (p : parser A) (k : A -> parser B) : parser B :=
  fun bs => match p bs with POk a t => k a t | PEof => PEof | PArg => PArg | PUB => PUB end.
Definition pret {A} (a : A) : parser A := POk a.
Notation "'get' x <- p ; k" := (pbind p (fun x => k)) (at level 200, x name, p at level 100, k at level 200).
Definition dec_uint : parser Z := lift (dec_v 32).
Definition dec_int : parser Z := get x <- dec_uint; pret (to_signed 32 x).
Definition dec_byte : parser Z := fun bs => match bs with [] => PEof | b :: t => POk b t end.
Fixpoint dec_n {A} (p : parser A) (n : nat) : parser (list A) :=
  match n with O => pret [] | S n' => get x <- p; get l <- dec_n p n'; pret (x :: l) end.
(* index.c:575-602 si_read *)
Definition dec_si : parser seg_info :=
  get name <- lift dec_str;
  get doc_cnt <- dec_int;
  get del_gen <- dec_int;
  get n <- dec_int;
  get gens <- dec_n dec_int (Z.to_nat n);
  get cfs <- dec_byte;
  pret (mkSi name doc_cnt del_gen (rev gens) (negb (cfs =? 0))).
(* index.c:412-446 fis_read: an exception before fis_new has returned is handled by fis_deref(NULL) *)
Definition null_deref {A} (p : parser A) : parser A := fun bs => match p bs with POk a t => POk a t | _ => PUB end.
Definition INDEX_NO : Z := 0.
Definition TERM_VECTOR_NO : Z := 0.
Definition dec_fi : parser field_info :=
  get name <- lift dec_str; get boost <- lift dec_u32; get bits <- dec_uint; pret (mkFi name boost bits).
(* fis_add_field (363-377) refuses a name which is already present *)
Fixpoint dec_fields (n : nat) (seen : list field_info) : parser (list field_info) :=
  match n with
  | O => pret seen
  | S n' => get f <- dec_fi;
            if existsb (fun g => beqb (fi_name g) (fi_name f)) seen then (fun _ => PArg)
            else dec_fields n' (seen ++ [f])
  end.
Definition dec_fis : parser field_infos :=
  get hd <- null_deref (get a <- dec_uint; get b <- dec_uint; get c <- dec_uint;
                        if (b =? INDEX_NO) && negb (c =? TERM_VECTOR_NO) then (fun _ => PArg) else pret (a, b, c));
  get n <- dec_int;
  get fs <- dec_fields (Z.to_nat n) [];
  pret (mkFis (fst (fst hd)) (snd (fst hd)) (snd hd) fs).
(* index.c:1076-1117 sis_read_i; the capacity loop does not end for more than 2^30 segments *)
Definition dec_sis : parser seg_infos :=
  get format <- lift dec_u32;
  get version <- lift dec_u64;
  get counter <- lift dec_u64;
  get n <- dec_int;
  if n >? 2 ^ 30 then (fun _ => PUB) else
  get segs <- dec_n dec_si (Z.to_nat n);
  get fis <- dec_fis;
  pret (mkSis format version counter segs fis).
(* index.c:1170-1188 sis_read_ver_i *)
Definition dec_version : parser Z := get f <- lift dec_u32; lift dec_u64.
