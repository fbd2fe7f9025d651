(* Model of the buffered streams of c/src/store.c over the two kinds of files: operating system
   files (c/src/fs_store.c) and in-memory files kept in 1024 byte chunks (c/src/ram_store.c).
   The stream code is parametrised by the method table of the file (struct OutStreamMethods /
   InStreamMethods), exactly as in C. *)
From Verif Require Import Util Codec_Model.
Open Scope nat_scope.

Definition BUFFER_SIZE : nat := Z.to_nat 1024.                    (* store.h: FRT_BUFFER_SIZE *)
Definition VINT_END : nat := BUFFER_SIZE - VINT_MAX_LEN.          (* store.h: FRT_VINT_END *)

(* ------------------------------------------------------------------ output streams *)
Section OutStream.
  Variable B : Type.                                 (* state of the underlying file *)
  Variable flush_i : B -> list Z -> option B.        (* method flush_i; None = undefined behaviour *)
  Variable seek_i : B -> nat -> B.                   (* method seek_i *)

  (* struct OutStream: buf.start, the bytes buf.buf[0..buf.pos) (so buf.pos is the length of
     o_buf), and the file. *)
  Record ostream := mkOs { o_start : nat; o_buf : list Z; o_b : B }.

  (* store.c:94-101 os_new *)
  Definition os_new (b : B) : ostream := mkOs 0 [] b.
  (* store.c:108-113 os_flush *)
  Definition os_flush (s : ostream) : option ostream :=
    do b <- flush_i (o_b s) (o_buf s);
    Some (mkOs (o_start s + length (o_buf s)) [] b).
  (* store.c:122-125 os_pos *)
  Definition os_pos (s : ostream) : nat := o_start s + length (o_buf s).
  (* store.c:127-132 os_seek *)
  Definition os_seek (s : ostream) (new_pos : nat) : option ostream :=
    do s1 <- os_flush s; Some (mkOs new_pos (o_buf s1) (seek_i (o_b s1) new_pos)).
  (* store.c:138 macro write_byte: unchecked; beyond the 1024 byte array it is undefined *)
  Definition write_byte (s : ostream) (b : Z) : option ostream :=
    if length (o_buf s) <? BUFFER_SIZE
    then Some (mkOs (o_start s) (o_buf s ++ [uchar b]) (o_b s)) else None.
  (* store.c:147-153 os_write_byte *)
  Definition os_write_byte (s : ostream) (b : Z) : option ostream :=
    do s1 <- (if BUFFER_SIZE <=? length (o_buf s) then os_flush s else Some s);
    write_byte s1 b.
  (* store.c:166-178, the loop of os_write_bytes *)
  Fixpoint os_write_bytes_loop (fuel : nat) (s : ostream) (bs : list Z) : option ostream :=
    match fuel with
    | O => None
    | S fuel' =>
        match bs with
        | [] => Some s
        | _ =>
            let size := if length bs <? BUFFER_SIZE then length bs else BUFFER_SIZE in
            do b <- flush_i (o_b s) (firstn size bs);
            os_write_bytes_loop fuel' (mkOs (o_start s + size) (o_buf s) b) (skipn size bs)
        end
    end.
  (* store.c:155-180 os_write_bytes *)
  Definition os_write_bytes (s : ostream) (bs : list Z) : option ostream :=
    do s1 <- (if 0 <? length (o_buf s) then os_flush s else Some s);
    if length bs <? BUFFER_SIZE then
      do b <- flush_i (o_b s1) bs;
      Some (mkOs (o_start s1 + length bs) (o_buf s1) b)
    else os_write_bytes_loop (S (length bs)) s1 bs.
  Fixpoint each_byte (put : ostream -> Z -> option ostream) (s : ostream) (bs : list Z) : option ostream :=
    match bs with [] => Some s | b :: t => do s1 <- put s b; each_byte put s1 t end.
  (* store.c:545-561, 564-580, 583-599: the two branches emit the same bytes (Codec_Model.enc_v)
     through os_write_byte respectively the unchecked write_byte *)
  Definition os_write_vint (s : ostream) (n : Z) : option ostream :=
    do bs <- enc_vint n;
    if VINT_END <? length (o_buf s) then each_byte os_write_byte s bs else each_byte write_byte s bs.
  (* store.c:504-542 *)
  Definition os_write_32 (s : ostream) (n : Z) : option ostream := each_byte os_write_byte s (enc_32 n).
  Definition os_write_64 (s : ostream) (n : Z) : option ostream := each_byte os_write_byte s (enc_64 n).
  (* store.c:601-605 os_write_string_len *)
  Definition os_write_string (s : ostream) (str : list Z) : option ostream :=
    do s1 <- os_write_vint s (Z.of_nat (length str)); os_write_bytes s1 str.

  (* The public operations on an output stream. *)
  Inductive oop :=
  | OByte (b : Z) | OBytes (bs : list Z) | OSeek (p : nat) | OFlush
  | OVint (n : Z) | O32 (n : Z) | O64 (n : Z) | OString (s : list Z).
  Definition ostep (s : ostream) (o : oop) : option ostream :=
    match o with
    | OByte b => os_write_byte s b
    | OBytes bs => os_write_bytes s bs
    | OSeek p => os_seek s p
    | OFlush => os_flush s
    | OVint n => os_write_vint s n
    | O32 n => os_write_32 s n
    | O64 n => os_write_64 s n
    | OString str => os_write_string s str
    end.
  Fixpoint orun (s : ostream) (ops : list oop) : option ostream :=
    match ops with [] => Some s | o :: t => do s1 <- ostep s o; orun s1 t end.
End OutStream.
Arguments mkOs {B}. Arguments o_start {B}. Arguments o_buf {B}. Arguments o_b {B}.
Arguments os_pos {B}. Arguments os_new {B}.

(* ------------------------------------------------------------------ input streams *)
Inductive res (A : Type) : Type :=
| Ok : A -> res A
| Err : res A          (* EOF_ERROR or IO_ERROR raised *)
| UB : res A.          (* undefined behaviour *)
Arguments Ok {A}. Arguments Err {A}. Arguments UB {A}.

Section InStream.
  Variable B : Type.
  Variable length_i : B -> nat.                              (* method length_i *)
  Variable read_i : B -> nat -> nat -> res (list Z) * B.     (* method read_i: file, is_pos, len *)
  Variable seek_i : B -> nat -> B.                           (* method seek_i *)

  (* struct InStream; i_len is a (possibly non-positive) off_t; i_data is buf.buf[0..len) as of
     the last refill *)
  Record istream := mkIs { i_start : nat; i_pos : nat; i_len : Z; i_data : list Z; i_b : B }.

  (* store.c:187-195 is_new *)
  Definition is_new (b : B) : istream := mkIs 0 0 0 [] b.
  (* store.c:250-253 is_pos *)
  Definition is_pos (s : istream) : nat := i_start s + i_pos s.
  (* store.c:204-224 is_refill *)
  Definition is_refill (s : istream) : res unit * istream :=
    let start := i_start s + i_pos s in
    let last := Nat.min (start + BUFFER_SIZE) (length_i (i_b s)) in
    let len := (Z.of_nat last - Z.of_nat start)%Z in
    if (len <=? 0)%Z then (Err, mkIs (i_start s) (i_pos s) len (i_data s) (i_b s))
    else match read_i (i_b s) start (Z.to_nat len) with
         | (Ok d, b') => (Ok tt, mkIs start 0 len d b')
         | (Err, b') => (Err, mkIs (i_start s) (i_pos s) len (i_data s) b')
         | (UB, b') => (UB, mkIs (i_start s) (i_pos s) len (i_data s) b')
         end.
  (* store.c:231 macro read_byte: unchecked; beyond buf.len it returns garbage (UB) *)
  Definition read_byte (s : istream) : res Z * istream :=
    if (Z.of_nat (i_pos s) <? i_len s)%Z then
      match nth_error (i_data s) (i_pos s) with
      | Some b => (Ok b, mkIs (i_start s) (S (i_pos s)) (i_len s) (i_data s) (i_b s))
      | None => (UB, s)
      end
    else (UB, s).
  (* store.c:241-248 is_read_byte *)
  Definition is_read_byte (s : istream) : res Z * istream :=
    if (i_len s <=? Z.of_nat (i_pos s))%Z then
      match is_refill s with
      | (Ok _, s1) => read_byte s1
      | (Err, s1) => (Err, s1)
      | (UB, s1) => (UB, s1)
      end
    else read_byte s.
  (* store.c:255-275 is_read_bytes *)
  Definition is_read_bytes (s : istream) (n : nat) : res (list Z) * istream :=
    if (Z.of_nat (i_pos s + n) <? i_len s)%Z then
      (Ok (firstn n (skipn (i_pos s) (i_data s))),
       mkIs (i_start s) (i_pos s + n) (i_len s) (i_data s) (i_b s))
    else
      let start := is_pos s in
      match read_i (seek_i (i_b s) start) start n with
      | (Ok d, b') => (Ok d, mkIs (start + n) 0 0 (i_data s) b')
      | (Err, b') => (Err, mkIs (i_start s) (i_pos s) (i_len s) (i_data s) b')
      | (UB, b') => (UB, mkIs (i_start s) (i_pos s) (i_len s) (i_data s) b')
      end.
  (* store.c:277-288 is_seek *)
  Definition is_seek (s : istream) (p : nat) : istream :=
    if ((i_start s <=? p) && (Z.of_nat p <? Z.of_nat (i_start s) + i_len s)%Z)%bool
    then mkIs (i_start s) (p - i_start s) (i_len s) (i_data s) (i_b s)
    else mkIs p 0 0 (i_data s) (seek_i (i_b s) p).

  (* store.c:348-435: the reading loops.  [rb] is is_read_byte or the unchecked read_byte.
     The shift test bounds the number of iterations, so 12 rounds of fuel always suffice
     (proved in Stream_Proofs). *)
  Fixpoint vint_loop (rb : istream -> res Z * istream) (w : Z) (fuel : nat) (acc shift : Z)
           (s : istream) : res Z * istream :=
    match fuel with
    | O => (UB, s)
    | S fuel' =>
        match rb s with
        | (Err, s1) => (Err, s1)
        | (UB, s1) => (UB, s1)
        | (Ok b, s1) =>
            if (shift >=? w)%Z then (UB, s1)
            else
              let acc' := Z.lor acc (Z.shiftl (Z.land b 127) shift mod 2 ^ w)%Z in
              if (Z.land b 128 =? 0)%Z then (Ok acc', s1)
              else vint_loop rb w fuel' acc' (shift + 7)%Z s1
        end
    end.
  Definition vint_with (rb : istream -> res Z * istream) (w : Z) (s : istream) : res Z * istream :=
    match rb s with
    | (Err, s1) => (Err, s1)
    | (UB, s1) => (UB, s1)
    | (Ok b, s1) =>
        let acc := Z.land b 127 in
        if (Z.land b 128 =? 0)%Z then (Ok acc, s1) else vint_loop rb w 12 acc 7 s1
    end.
  (* w = 32: is_read_vint (348-375); w = 64: is_read_voff_t (378-405) and is_read_vll (408-435) *)
  Definition is_read_vint (w : Z) (s : istream) : res Z * istream :=
    if (i_len s - Z.of_nat VINT_MAX_LEN <? Z.of_nat (i_pos s))%Z
    then vint_with is_read_byte w s
    else vint_with read_byte w s.

  Fixpoint read_bytes_1by1 (n : nat) (s : istream) : res (list Z) * istream :=
    match n with
    | O => (Ok [], s)
    | S n' =>
        match is_read_byte s with
        | (Err, s1) => (Err, s1)
        | (UB, s1) => (UB, s1)
        | (Ok b, s1) =>
            match read_bytes_1by1 n' s1 with
            | (Ok bs, s2) => (Ok (b :: bs), s2)
            | r => r
            end
        end
    end.
  (* store.c:307-345: four/eight is_read_byte calls, left to right *)
  Definition is_read_fixed (n : nat) (dec : list Z -> rd Z) (s : istream) : res Z * istream :=
    match read_bytes_1by1 n s with
    | (Ok bs, s1) => match dec bs with ROk v _ => (Ok v, s1) | REof => (Err, s1) | RUB => (UB, s1) end
    | (Err, s1) => (Err, s1)
    | (UB, s1) => (UB, s1)
    end.
  (* store.c:460-478 is_read_string *)
  Definition is_read_string (s : istream) : res (list Z) * istream :=
    match is_read_vint 32 s with
    | (Err, s1) => (Err, s1)
    | (UB, s1) => (UB, s1)
    | (Ok n, s1) =>
        if (2 ^ 31 <=? n)%Z then (UB, s1)
        else if (i_len s1 - n <? Z.of_nat (i_pos s1))%Z then read_bytes_1by1 (Z.to_nat n) s1
        else (Ok (firstn (Z.to_nat n) (skipn (i_pos s1) (i_data s1))),
              mkIs (i_start s1) (i_pos s1 + Z.to_nat n) (i_len s1) (i_data s1) (i_b s1))
    end.
  (* store.c:437-443 is_skip_vints; the inner loop ends at the latest at the end of the file *)
  Fixpoint skip_one_i (fuel : nat) (s : istream) : res unit * istream :=
    match fuel with
    | O => (UB, s)
    | S fuel' =>
        match is_read_byte s with
        | (Err, s1) => (Err, s1)
        | (UB, s1) => (UB, s1)
        | (Ok b, s1) => if (Z.land b 128 =? 0)%Z then (Ok tt, s1) else skip_one_i fuel' s1
        end
    end.
  Fixpoint is_skip_vints (cnt : nat) (s : istream) : res unit * istream :=
    match cnt with
    | O => (Ok tt, s)
    | S c => match skip_one_i (S (length_i (i_b s))) s with
             | (Ok _, s1) => is_skip_vints c s1
             | r => r
             end
    end.

  (* The public operations on an input stream; a run continues after a raised error (the caller
     may catch it) and stops at undefined behaviour. *)
  Inductive iop :=
  | IByte | IBytes (n : nat) | ISeek (p : nat) | IPos | IVint | IVll | II32 | IU32 | II64 | IU64
  | IString | ISkip (n : nat).
  Inductive ival := VByte (b : Z) | VBytes (bs : list Z) | VUnit | VPos (p : nat) | VInt (z : Z).
  Definition rmap {A C} (f : A -> C) (r : res A * istream) : res C * istream :=
    match r with (Ok a, s) => (Ok (f a), s) | (Err, s) => (Err, s) | (UB, s) => (UB, s) end.
  Definition istep (s : istream) (o : iop) : res ival * istream :=
    match o with
    | IByte => rmap VByte (is_read_byte s)
    | IBytes n => rmap VBytes (is_read_bytes s n)
    | ISeek p => (Ok VUnit, is_seek s p)
    | IPos => (Ok (VPos (is_pos s)), s)
    | IVint => rmap VInt (is_read_vint 32 s)
    | IVll => rmap VInt (is_read_vint 64 s)
    | II32 => rmap VInt (is_read_fixed 4 dec_i32 s)
    | IU32 => rmap VInt (is_read_fixed 4 dec_u32 s)
    | II64 => rmap VInt (is_read_fixed 8 dec_i64 s)
    | IU64 => rmap VInt (is_read_fixed 8 dec_u64 s)
    | IString => rmap VBytes (is_read_string s)
    | ISkip n => rmap (fun _ => VUnit) (is_skip_vints n s)
    end.
  Fixpoint irun (s : istream) (ops : list iop) : list (res ival) :=
    match ops with
    | [] => []
    | o :: t => match istep s o with
                | (UB, _) => [UB]
                | (r, s1) => r :: irun s1 t
                end
    end.
End InStream.
Arguments mkIs {B}. Arguments i_start {B}. Arguments i_pos {B}. Arguments i_len {B}.
Arguments i_data {B}. Arguments i_b {B}. Arguments is_pos {B}. Arguments is_new {B}.

(* ------------------------------------------------------------------ operating system files *)
(* POSIX write(2) at offset p of a file with contents f: a hole is filled with zeros; writing no
   bytes changes nothing.  (Short writes raise IO_ERROR in fso_flush_i and are not modelled.) *)
Definition pwrite (f : list Z) (p : nat) (bs : list Z) : list Z :=
  match bs with
  | [] => f
  | _ => firstn p (f ++ repeat 0%Z (p - length f)) ++ bs ++ skipn (p + length bs) f
  end.
(* an open file description: contents and offset *)
Record fsfile := mkFs { fs_data : list Z; fs_off : nat }.
(* fs_store.c:241-247 fso_flush_i *)
Definition fso_flush_i (b : fsfile) (bs : list Z) : option fsfile :=
  Some (mkFs (pwrite (fs_data b) (fs_off b) bs) (fs_off b + length bs)).
(* fs_store.c:249-255 fso_seek_i *)
Definition fso_seek_i (b : fsfile) (p : nat) : fsfile := mkFs (fs_data b) p.
(* fs_store.c:287-301 fsi_read_i: reads at is_pos; a short read raises IO_ERROR and leaves the
   offset behind what was read *)
Definition fsi_read_i (b : fsfile) (pos n : nat) : res (list Z) * fsfile :=
  let d := firstn n (skipn pos (fs_data b)) in
  if length d =? n then (Ok d, mkFs (fs_data b) (pos + n))
  else (Err, mkFs (fs_data b) (pos + length d)).
(* fs_store.c:303-309 fsi_seek_i *)
Definition fsi_seek_i (b : fsfile) (p : nat) : fsfile := mkFs (fs_data b) p.
(* fs_store.c:319-326 fsi_length_i *)
Definition fsi_length_i (b : fsfile) : nat := length (fs_data b).

(* ------------------------------------------------------------------ in-memory files *)
(* struct RAMFile: chunks of 1024 cells; None is a cell of a malloc'ed chunk never written. *)
Record ramfile := mkRf { rf_bufs : list (list (option Z)); rf_len : nat }.
Definition new_chunk : list (option Z) := repeat None BUFFER_SIZE.
(* ram_store.c:5-15 rf_new *)
Definition rf_new : ramfile := mkRf [new_chunk] 0.
(* ram_store.c:17-23 rf_extend_if_necessary *)
Definition rf_extend (bufs : list (list (option Z))) (buf_num : nat) : list (list (option Z)) :=
  bufs ++ repeat new_chunk (S buf_num - length bufs).
(* memcpy into a chunk; writing past its end is undefined *)
Definition chunk_copy (c : list (option Z)) (off : nat) (src : list Z) : option (list (option Z)) :=
  if off + length src <=? BUFFER_SIZE
  then Some (firstn off c ++ map Some src ++ skipn (off + length src) c) else None.
Definition bufs_copy (bufs : list (list (option Z))) (k off : nat) (src : list Z)
  : option (list (list (option Z))) :=
  do c <- nth_error bufs k; do c' <- chunk_copy c off src; Some (upd bufs k c').
(* an open RAM output stream's file state: the RAMFile and os->pointer *)
Record ramos := mkRo { ro_file : ramfile; ro_ptr : nat }.
(* ram_store.c:186-218 ramo_flush_i *)
Definition ramo_flush_i (b : ramos) (src : list Z) : option ramos :=
  let pointer := ro_ptr b in
  let len := length src in
  let buffer_number := pointer / BUFFER_SIZE in
  let buffer_offset := pointer mod BUFFER_SIZE in
  let bytes_in_buffer := BUFFER_SIZE - buffer_offset in
  let bytes_to_copy := if bytes_in_buffer <? len then bytes_in_buffer else len in
  let bufs1 := rf_extend (rf_bufs (ro_file b)) buffer_number in
  do bufs2 <- bufs_copy bufs1 buffer_number buffer_offset (firstn bytes_to_copy src);
  do bufs3 <- (if bytes_to_copy <? len
               then bufs_copy (rf_extend bufs2 (buffer_number + 1)) (buffer_number + 1) 0
                              (skipn bytes_to_copy src)
               else Some bufs2);
  let pointer' := pointer + len in
  Some (mkRo (mkRf bufs3 (if rf_len (ro_file b) <? pointer' then pointer' else rf_len (ro_file b)))
             pointer').
(* ram_store.c:220-223 ramo_seek_i *)
Definition ramo_seek_i (b : ramos) (p : nat) : ramos := mkRo (ro_file b) p.

(* reading initialised cells; an uninitialised cell is undefined behaviour *)
Fixpoint cells (l : list (option Z)) : option (list Z) :=
  match l with
  | [] => Some []
  | Some b :: t => do r <- cells t; Some (b :: r)
  | None :: _ => None
  end.
(* ram_store.c:304-320, the loop of rami_read_i; reading from a missing chunk is undefined *)
Fixpoint rami_loop (fuel : nat) (bufs : list (list (option Z))) (start remainder : nat) : option (list Z) :=
  match fuel with
  | O => None
  | S fuel' =>
      if 0 <? remainder then
        let bytes_in_buffer := BUFFER_SIZE - start mod BUFFER_SIZE in
        let bytes_to_copy := if remainder <=? bytes_in_buffer then remainder else bytes_in_buffer in
        do c <- nth_error bufs (start / BUFFER_SIZE);
        do d <- cells (firstn bytes_to_copy (skipn (start mod BUFFER_SIZE) c));
        if length d =? bytes_to_copy
        then do r <- rami_loop fuel' bufs (start + bytes_to_copy) (remainder - bytes_to_copy);
             Some (d ++ r)
        else None
      else Some []
  end.
(* an open RAM input stream: file and d.pointer *)
Record ramis := mkRi { ri_file : ramfile; ri_ptr : nat }.
(* ram_store.c:294-323 rami_read_i: reads at d.pointer, ignoring is_pos *)
Definition rami_read_i (b : ramis) (_ : nat) (n : nat) : res (list Z) * ramis :=
  match rami_loop (S n) (rf_bufs (ri_file b)) (ri_ptr b) n with
  | Some d => (Ok d, mkRi (ri_file b) (ri_ptr b + n))
  | None => (UB, b)
  end.
(* ram_store.c:330-333 rami_seek_i *)
Definition rami_seek_i (b : ramis) (p : nat) : ramis := mkRi (ri_file b) p.
(* ram_store.c:325-328 rami_length_i *)
Definition rami_length_i (b : ramis) : nat := rf_len (ri_file b).

(* ram_store.c:238-252 ramo_write_to: the bytes handed to os_write_bytes of the other stream.
   buffers[i] with i >= bufcnt is an out-of-bounds read of the chunk table. *)
Fixpoint write_to_loop (rf : ramfile) (i cnt : nat) : option (list Z) :=
  match cnt with
  | O => Some []
  | S cnt' =>
      let last := rf_len rf / BUFFER_SIZE in
      let len := if i =? last then rf_len rf mod BUFFER_SIZE else BUFFER_SIZE in
      do c <- nth_error (rf_bufs rf) i;
      do d <- cells (firstn len c);
      do r <- write_to_loop rf (S i) cnt';
      Some (d ++ r)
  end.
Definition ramo_write_to (s : ostream ramos) : option (list Z) :=
  do s1 <- os_flush ramos ramo_flush_i s;
  write_to_loop (ro_file (o_b s1)) 0 (S (rf_len (ro_file (o_b s1)) / BUFFER_SIZE)).

(* ram_store.c:278-292 ram_new_output / 349-376 ram_open_input on a directory entry: an existing
   RAMFile is reused as it is. *)
Definition ram_new_output (old : option ramfile) : ostream ramos :=
  os_new (mkRo (match old with Some rf => rf | None => rf_new end) 0).
Definition ram_open_input (rf : ramfile) : istream ramis := is_new (mkRi rf 0).
(* fs_store.c:270-285 fs_new_output: open(O_WRONLY|O_CREAT) without O_TRUNC; 335-352 fs_open_input *)
Definition fs_new_output (old : option (list Z)) : ostream fsfile :=
  os_new (mkFs (match old with Some d => d | None => [] end) 0).
Definition fs_open_input (d : list Z) : istream fsfile := is_new (mkFs d 0).
