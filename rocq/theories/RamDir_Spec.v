(* A directory as it is meant: names for files, files that live on while a stream is open on them. *)
From Coq Require Import String.
From Verif Require Import Util Codec_Model Seg_Model RamDir_Model.
Open Scope Z_scope.

(* d_names: the number of the file of a name; d_data: the bytes of all files there ever were *)
Record dir := mkDir { d_names : list (list Z * nat); d_data : list (list Z); d_open : list (option (nat * nat)) }.
Definition name_dec : forall a b : list Z, {a = b} + {a <> b} := list_eq_dec Z.eq_dec.
Fixpoint file_of (n : list Z) (l : list (list Z * nat)) : option nat := match l with [] => None | (m, f) :: t => if name_dec m n then Some f else file_of n t end.
Definition without (n : list Z) (l : list (list Z * nat)) : list (list Z * nat) := filter (fun x => if name_dec (fst x) n then false else true) l.
Definition lock_name (n : list Z) : Prop := exists t, t <> [] /\ n = t ++ str ".lck".
Definition ends_lck (n : list Z) : bool := (4 <? length n)%nat && (if name_dec (skipn (length n - 4) n) (str ".lck") then true else false).
Definition only (p : list Z -> bool) (l : list (list Z * nat)) : list (list Z * nat) := filter (fun x => p (fst x)) l.
Definition stream_on (f : nat) (d : dir) : res * dir := (Stream (length (d_open d)), mkDir (d_names d) (d_data d) (d_open d ++ [Some (f, 0%nat)])).
Definition named (d : dir) (l : list (list Z * nat)) : dir := mkDir l (d_data d) (d_open d).
(* None: a stream is used that was closed or never opened *)
Definition does (d : dir) (o : op) : option (res * dir) :=
  match o with
  | Touch n => Some (Done, match file_of n (d_names d) with Some _ => d | None => mkDir (d_names d ++ [(n, length (d_data d))]) (d_data d ++ [[]]) (d_open d) end)
  | Exists n => Some (match file_of n (d_names d) with Some _ => Yes | None => No end, d)
  | Remove n => Some (match file_of n (d_names d) with Some _ => Yes | None => No end, named d (without n (d_names d)))
  | Rename a b => Some (match file_of a (d_names d) with Some f => (Done, named d (without b (without a (d_names d)) ++ [(b, f)])) | None => (IoError, d) end)
  | Count => Some (Num (length (d_names d)), d)
  | Clear => Some (Done, named d (only ends_lck (d_names d)))
  | ClearLocks => Some (Done, named d (only (fun n => negb (ends_lck n)) (d_names d)))
  | ClearAll => Some (Done, named d [])
  | Length n => Some (Num (match file_of n (d_names d) with Some f => length (nth f (d_data d) []) | None => 0 end), d)
  | Create n => Some (match file_of n (d_names d) with
                      | Some f => stream_on f d
                      | None => stream_on (length (d_data d)) (mkDir (d_names d ++ [(n, length (d_data d))]) (d_data d ++ [[]]) (d_open d))
                      end)
  | Open n => Some (match file_of n (d_names d) with Some f => stream_on f d | None => (NotFound, d) end)
  | Write h b => match nth_error (d_open d) h with
                 | Some (Some (f, pos)) => let x := nth f (d_data d) [] in
                     Some (Done, mkDir (d_names d) (set_nth (d_data d) f (firstn pos x ++ b ++ skipn (pos + length b) x)) (set_nth (d_open d) h (Some (f, pos + length b)%nat)))
                 | _ => None
                 end
  | Read h => match nth_error (d_open d) h with Some (Some (f, _)) => Some (Data (nth f (d_data d) []), d) | _ => None end
  | Close h => match nth_error (d_open d) h with Some (Some _) => Some (Done, mkDir (d_names d) (d_data d) (set_nth (d_open d) h None)) | _ => None end
  end.
Fixpoint does_all (d : dir) (os : list op) : option (list res * dir) :=
  match os with [] => Some ([], d) | o :: t => match does d o with Some x => match does_all (snd x) t with Some y => Some (fst x :: fst y, snd y) | None => None end | None => None end end.
Definition empty_dir : dir := mkDir [] [] [].

(* a store behaves like a directory: whatever is done with it, as long as no closed stream is used *)
Definition behaves (H : list Z -> Z) (r : ram) (d : dir) : Prop := forall os xs d', does_all d os = Some (xs, d') -> exists r', run H r os = Some (xs, r').
Definition content (n : list Z) (d : dir) : option (list Z) := match file_of n (d_names d) with Some f => Some (nth f (d_data d) []) | None => None end.
(* what is left for a caller when the store is gone *)
Definition stream_op (o : op) : Prop := match o with Write _ _ | Read _ | Close _ => True | _ => False end.
Definition kept_by_copy (n : list Z) : bool := if name_dec (firstn 7 n) (str "ferret-") then false else true.
