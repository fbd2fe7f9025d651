(* Model of c/src/compound_io.c: the compound file writer and the compound store. *)
From Verif Require Import Util Codec_Model Stream_Model.
Open Scope nat_scope.

Section Writer.
  (* output file of the store *)
  Variable BO : Type.
  Variable flush_i : BO -> list Z -> option BO.
  Variable oseek_i : BO -> nat -> BO.
  (* input files of the store *)
  Variable BI : Type.
  Variable length_i : BI -> nat.
  Variable read_i : BI -> nat -> nat -> res (list Z) * BI.
  Variable iseek_i : BI -> nat -> BI.

  (* compound_io.c:310-315, the loop of cw_copy_file; None = IO error or undefined behaviour *)
  Fixpoint copy_loop (fuel : nat) (is : istream BI) (os : ostream BO) (remainder : nat) : option (ostream BO) :=
    match fuel with
    | O => None
    | S fuel' =>
        if 0 <? remainder then
          let len := Nat.min remainder BUFFER_SIZE in
          match is_read_bytes BI read_i iseek_i is len with
          | (Ok d, is') =>
              do os' <- os_write_bytes BO flush_i os d;
              copy_loop fuel' is' os' (remainder - len)
          | _ => None
          end
        else Some os
    end.
  (* compound_io.c:299-335 cw_copy_file: copy, then verify the length *)
  Definition cw_copy_file (is : istream BI) (os : ostream BO) : option (ostream BO) :=
    let start_ptr := os_pos os in
    let length := length_i (i_b is) in
    do os' <- copy_loop (S length) is os length;
    if os_pos os' - start_ptr =? length then Some os' else None.

  (* compound_io.c:351-355: the directory with all offsets 0; returns the dir_offset fields *)
  Fixpoint cw_dir (os : ostream BO) (names : list (list Z)) : option (ostream BO * list nat) :=
    match names with
    | [] => Some (os, [])
    | n :: t =>
        let dir_offset := os_pos os in
        do os1 <- os_write_64 BO flush_i os 0%Z;
        do os2 <- os_write_string BO flush_i os1 n;
        do r <- cw_dir os2 t;
        Some (fst r, dir_offset :: snd r)
    end.
  (* compound_io.c:359-362: the contents; returns the data_offset fields *)
  Fixpoint cw_data (os : ostream BO) (srcs : list (istream BI)) : option (ostream BO * list nat) :=
    match srcs with
    | [] => Some (os, [])
    | is :: t =>
        let data_offset := os_pos os in
        do os1 <- cw_copy_file is os;
        do r <- cw_data os1 t;
        Some (fst r, data_offset :: snd r)
    end.
  (* compound_io.c:365-368: patch the directory *)
  Fixpoint cw_patch (os : ostream BO) (l : list (nat * nat)) : option (ostream BO) :=
    match l with
    | [] => Some os
    | (dir_offset, data_offset) :: t =>
        do os1 <- os_seek BO flush_i oseek_i os dir_offset;
        do os2 <- os_write_64 BO flush_i os1 (Z.of_nat data_offset);
        cw_patch os2 t
    end.
  (* compound_io.c:337-377 cw_close; a member is its name and its opened input stream.  An empty
     member list raises STATE_ERROR (None). *)
  Definition cw_close (b : BO) (members : list (list Z * istream BI)) : option (ostream BO) :=
    match members with
    | [] => None
    | _ =>
        do os1 <- os_write_vint BO flush_i (os_new b) (Z.of_nat (length members));
        do r1 <- cw_dir os1 (map fst members);
        do r2 <- cw_data (fst r1) (map snd members);
        do os2 <- cw_patch (fst r2) (combine (snd r1) (snd r2));
        os_flush BO flush_i os2
    end.
End Writer.

(* struct FileEntry with its key *)
Record centry := mkCe { ce_name : list Z; ce_offset : Z; ce_length : Z }.

Section Reader.
  (* the stream of the compound file *)
  Variable B : Type.
  Variable length_i : B -> nat.
  Variable read_i : B -> nat -> nat -> res (list Z) * B.
  Variable seek_i : B -> nat -> B.

  (* compound_io.c:226-241: the directory loop.  Offsets are read, the length of the previous entry
     is set when the next offset is known. *)
  Fixpoint read_dir (n : nat) (is : istream B) : option (list (list Z * Z) * istream B) :=
    match n with
    | O => Some ([], is)
    | S n' =>
        match is_read_fixed B length_i read_i 8 dec_i64 is with
        | (Ok off, is1) =>
            match is_read_string B length_i read_i is1 with
            | (Ok name, is2) =>
                do r <- read_dir n' is2; Some ((name, off) :: fst r, snd r)
            | _ => None
            end
        | _ => None
        end
    end.
  Fixpoint set_lengths (l : list (list Z * Z)) (flen : Z) : list centry :=
    match l with
    | [] => []
    | (n, o) :: t => mkCe n o ((match t with [] => flen | (_, o') :: _ => o' end) - o)%Z :: set_lengths t flen
    end.
  (* compound_io.c:208-271 open_cmpd_store; the Hash of entries is modelled as a list, names being
     distinct (cw_add_file, 286-297, refuses duplicates) *)
  Definition open_cmpd_store (is : istream B) : option (list centry * istream B) :=
    match is_read_vint B length_i read_i 32 is with
    | (Ok count, is1) =>
        do r <- read_dir (Z.to_nat (to_signed 32 count)) is1;
        Some (set_lengths (fst r) (Z.of_nat (length_i (i_b (snd r)))), snd r)
    | _ => None
    end.

  (* compound_io.c:164-191 cmpd_open_input, 152-163 cmpd_create_input *)
  Definition cmpd_find (es : list centry) (name : list Z) : option centry :=
    find (fun e => if list_eq_dec Z.eq_dec (ce_name e) name then true else false) es.

  (* A member stream's "file" is the shared base stream. *)
  Variable offset len : nat.
  (* compound_io.c:122-125 *)
  Definition cmpdi_length_i (_ : istream B) : nat := len.
  (* compound_io.c:111-115 *)
  Definition cmpdi_seek_i (b : istream B) (_ : nat) : istream B := b.
  (* compound_io.c:130-142 cmpdi_read_i *)
  Definition cmpdi_read_i (b : istream B) (pos n : nat) : res (list Z) * istream B :=
    if len <? pos + n then (Err, b)
    else is_read_bytes B read_i seek_i (is_seek B seek_i b (offset + pos)) n.
End Reader.

(* Several member streams sharing one base stream, operated in any interleaving. *)
Section Shared.
  Variable B : Type.
  Variable length_i : B -> nat.
  Variable read_i : B -> nat -> nat -> res (list Z) * B.
  Variable seek_i : B -> nat -> B.
  (* a member: offset, length, and its own InStream fields *)
  Record member := mkMem { m_off : nat; m_len : nat; m_is : istream unit }.
  Definition plug (b : istream B) (m : istream unit) : istream (istream B) :=
    mkIs (i_start m) (i_pos m) (i_len m) (i_data m) b.
  Definition unplug (s : istream (istream B)) : istream unit :=
    mkIs (i_start s) (i_pos s) (i_len s) (i_data s) tt.
  Definition mstep (b : istream B) (m : member) (o : iop) : res ival * (istream B * member) :=
    let '(r, s) := istep (istream B) (cmpdi_length_i B (m_len m))
                     (cmpdi_read_i B read_i seek_i (m_off m) (m_len m)) (cmpdi_seek_i B)
                     (plug b (m_is m)) o in
    (r, (i_b s, mkMem (m_off m) (m_len m) (unplug s))).
  Fixpoint mrun (b : istream B) (ms : list member) (ops : list (nat * iop)) : list (res ival) :=
    match ops with
    | [] => []
    | (k, o) :: t =>
        match nth_error ms k with
        | None => mrun b ms t
        | Some m => match mstep b m o with
                    | (UB, _) => [UB]
                    | (r, (b', m')) => r :: mrun b' (upd ms k m') t
                    end
        end
    end.
  Definition new_member (e : centry) : member :=
    mkMem (Z.to_nat (ce_offset e)) (Z.to_nat (ce_length e)) (is_new tt).
End Shared.
