(* Ideal files: an output file is a byte array with a write position, an input file is a byte array
   with a read position; there are no buffers and no chunks. *)
From Verif Require Import Util Codec_Model Codec_Spec Stream_Model.
Open Scope nat_scope.

(* ---- output *)
Record ofile := mkOf { f_data : list Z; f_pos : nat }.
(* Overwrite from the position on, growing the array as needed; bytes between the old end and the
   position are zero. *)
Definition put (f : ofile) (bs : list Z) : ofile :=
  match bs with
  | [] => f
  | _ => mkOf (firstn (f_pos f) (f_data f ++ repeat 0%Z (f_pos f - length (f_data f)))
               ++ bs ++ skipn (f_pos f + length bs) (f_data f))
              (f_pos f + length bs)
  end.
(* The bytes each operation denotes. *)
Definition op_bytes (o : oop) : option (list Z) :=
  match o with
  | OByte b => Some [uchar b]
  | OBytes bs => Some bs
  | OSeek _ | OFlush => Some []
  | OVint n => enc_vint n
  | O32 n => Some (enc_32 n)
  | O64 n => Some (enc_64 n)
  | OString s => enc_str s
  end.
Definition ideal_step (f : ofile) (o : oop) : option ofile :=
  match o with
  | OSeek p => Some (mkOf (f_data f) p)
  | _ => do bs <- op_bytes o; Some (put f bs)
  end.
Fixpoint ideal_run (f : ofile) (ops : list oop) : option ofile :=
  match ops with [] => Some f | o :: t => do f1 <- ideal_step f o; ideal_run f1 t end.
(* All seeks stay within the bytes written so far. *)
Fixpoint seeks_within (f : ofile) (ops : list oop) : Prop :=
  match ops with
  | [] => True
  | o :: t => (match o with OSeek p => p <= length (f_data f) | _ => True end) /\
              match ideal_step f o with Some f1 => seeks_within f1 t | None => True end
  end.
Definition values_ok (o : oop) : Prop :=
  match o with
  | OVint n => (0 <= n < 2 ^ 64)%Z
  | OString s => (Z.of_nat (length s) < 2 ^ 31)%Z
  | _ => True
  end.

(* ---- input *)
(* Outcome of a bulk read of n bytes that does not fit: depends on the kind of file. *)
Definition take (f : list Z) (p : nat) {A} (r : rd A) (v : A -> ival) : res ival * nat :=
  match r with
  | ROk a rest => (Ok (v a), length f - length rest)
  | REof => (Err, Nat.max p (length f))
  | RUB => (UB, p)
  end.
(* [past] is what a bulk read across the end of the file yields. *)
Definition ideal_read (past : nat -> res (list Z)) (f : list Z) (p : nat) (o : iop) : res ival * nat :=
  let rest := skipn p f in
  match o with
  | IByte => match nth_error f p with Some b => (Ok (VByte b), S p) | None => (Err, Nat.max p (length f)) end
  | IBytes n => if p + n <=? length f then (Ok (VBytes (firstn n rest)), p + n)
                else match past n with
                     | Ok d => (Ok (VBytes d), p + n) | Err => (Err, p) | UB => (UB, p)
                     end
  | ISeek q => (Ok VUnit, q)
  | IPos => (Ok (VPos p), p)
  | IVint => take f p (dec_v 32 rest) VInt
  | IVll => take f p (dec_v 64 rest) VInt
  | II32 => take f p (dec_i32 rest) VInt
  | IU32 => take f p (dec_u32 rest) VInt
  | II64 => take f p (dec_i64 rest) VInt
  | IU64 => take f p (dec_u64 rest) VInt
  | IString => take f p (dec_str rest) VBytes
  | ISkip n => match n with O => (Ok VUnit, p) | _ => take f p (skip_vints n rest) (fun _ => VUnit) end
  end.
Fixpoint ideal_reads (past : nat -> res (list Z)) (f : list Z) (p : nat) (ops : list iop) : list (res ival) :=
  match ops with
  | [] => []
  | o :: t => match ideal_read past f p o with
              | (UB, _) => [UB]
              | (r, p1) => r :: ideal_reads past f p1 t
              end
  end.
(* The results of a run agree with the ideal results up to the first undefined behaviour. *)
Inductive agree_until_ub : list (res ival) -> list (res ival) -> Prop :=
| agree_nil : agree_until_ub [] []
| agree_ub : forall t l, agree_until_ub (UB :: t) l
| agree_cons : forall r t l, agree_until_ub t l -> agree_until_ub (r :: t) (r :: l).

(* A bulk read past the end raises an error on an operating system file; it is undefined for an
   in-memory file.  Reading zero bytes always succeeds. *)
Definition fs_past (n : nat) : res (list Z) := match n with O => Ok [] | _ => Err end.
Definition ram_past (n : nat) : res (list Z) := match n with O => Ok [] | _ => UB end.

(* An in-memory file stores the bytes f. *)
Definition ram_holds (rf : ramfile) (f : list Z) : Prop :=
  rf_len rf = length f /\ Forall (fun c => length c = BUFFER_SIZE) (rf_bufs rf) /\
  rf_bufs rf <> [] /\
  firstn (length f) (concat (rf_bufs rf)) = map Some f.

(* Positioned writes on a flat array (C05) and the bytes denoted by a run without seeks (C06). *)
Fixpoint flat_writes (f : list Z) (ws : list (nat * list Z)) : list Z :=
  match ws with [] => f | (p, bs) :: t => flat_writes (f_data (put (mkOf f p) bs)) t end.
Fixpoint writes_within (f : list Z) (ws : list (nat * list Z)) : Prop :=
  match ws with
  | [] => True
  | (p, bs) :: t => p <= length f /\ length bs <= BUFFER_SIZE /\
                    writes_within (f_data (put (mkOf f p) bs)) t
  end.
Fixpoint ram_writes (b : ramos) (ws : list (nat * list Z)) : option ramos :=
  match ws with
  | [] => Some b
  | (p, bs) :: t => do b' <- ramo_flush_i (ramo_seek_i b p) bs; ram_writes b' t
  end.
Definition no_seek (o : oop) : Prop := match o with OSeek _ => False | _ => True end.
Fixpoint written (ops : list oop) : option (list Z) :=
  match ops with
  | [] => Some []
  | o :: t => do a <- op_bytes o; do b <- written t; Some (a ++ b)
  end.
