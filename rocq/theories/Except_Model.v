(* Model of the exception mechanism (c/src/except.c 24-101, c/include/except.h 100-165): a stack of contexts, raising by jumping to the topmost context, and
   the macros TRY, XFINALLY, XCATCHALL, case, HANDLED, XENDTRY and ENDTRY with FINALLY.  Programs are statements over a state of their own (U); a statement of
   the program proper may be undefined.  A jump back into a switch can go on for ever, so programs run with fuel.  RETURN_EARLY and threads are not modelled. *)
From Verif Require Import Util.
Open Scope Z_scope.
Section EXCEPT.
  Variable U : Type.
  (* an exception: its code and the text formatted for it.  Every RAISE formats into the one global buffer xmsg_buffer_final and stores a pointer to it *)
  Definition exn := (Z * Z)%type.
  Inductive stmt :=
  | Do (f : U -> option U)                          (* anything that raises nothing *)
  | Raise (g : U -> option exn)                     (* RAISE, under a condition *)
  | Seq (a b : stmt)
  | Handled                                         (* HANDLED() *)
  | Fin (b f : stmt)                                (* TRY b XFINALLY f XENDTRY *)
  | Catch (b h : stmt)                              (* TRY b XCATCHALL h XENDTRY *)
  | Cases (b : stmt) (has : Z -> bool) (h : Z -> stmt)                (* TRY b; break; case c: h c; break; ... XENDTRY *)
  | CasesFin (b : stmt) (has : Z -> bool) (h : Z -> stmt) (f : stmt). (* TRY b; break; case c: h c; break; ... case FINALLY: f ENDTRY *)
  Record ctx := mkCtx { handled : bool; in_fin : bool; code : Z }.
  (* how a statement ends: with the next one, by a jump to the topmost context, with XEXIT *)
  Inductive out := Next | Thrown | Exit (c m : Z).
  Inductive res := Stuck | Res (o : out) (u : U) (st : list ctx) (buf : Z).
  (* 36-45 xpush_context *)
  Definition push (st : list ctx) : list ctx := mkCtx true false 0 :: st.
  (* 47-55 xraise_context *)
  Definition jump (c : Z) (x : ctx) : ctx := mkCtx false (in_fin x) c.
  (* 68-85 xraise *)
  Definition xraise (c m : Z) (st : list ctx) : out * list ctx :=
    match st with
    | [] => (Exit c m, [])
    | x :: t => if negb (in_fin x) then (Thrown, jump c x :: t) else if handled x then (Next, mkCtx false (in_fin x) c :: t) else (Next, st)
    end.
  (* 87-101 xpop_context; the message of the context is what the buffer holds now *)
  Definition xpop (u : U) (st : list ctx) (buf : Z) : res :=
    match st with
    | [] => Stuck
    | x :: t => if handled x then Res Next u t buf else match t with [] => Res (Exit (code x) buf) u [] buf | y :: t' => Res Thrown u (jump (code x) y :: t') buf end
    end.
  Definition set_handled (st : list ctx) : list ctx := match st with [] => [] | x :: t => mkCtx true (in_fin x) (code x) :: t end.
  Definition set_fin (st : list ctx) : list ctx := match st with [] => [] | x :: t => mkCtx (handled x) true (code x) :: t end.
  Definition top_code (st : list ctx) : Z := match st with [] => 0 | x :: _ => code x end.
  Fixpoint exec (n : nat) (s : stmt) (u : U) (st : list ctx) (buf : Z) {struct n} : option res :=
    match n with
    | O => None
    | S n =>
        match s with
        | Do f => Some (match f u with None => Stuck | Some v => Res Next v st buf end)
        | Raise g => Some (match g u with None => Res Next u st buf | Some (c, m) => let r := xraise c m st in Res (fst r) u (snd r) m end)
        | Handled => Some (Res Next u (set_handled st) buf)
        | Seq a b => match exec n a u st buf with Some (Res Next v st' buf') => exec n b v st' buf' | r => r end
        | Fin b f => match exec n b u (push st) buf with Some (Res (Exit c m) v st' buf') => Some (Res (Exit c m) v st' buf') | Some (Res _ v st' buf') => block n f v st' buf' | r => r end
        | Catch b h => match exec n b u (push st) buf with Some (Res Next v st' buf') => Some (xpop v st' buf') | Some (Res Thrown v st' buf') => block n h v st' buf' | r => r end
        | Cases b has h => match exec n b u (push st) buf with Some (Res Next v st' buf') => Some (xpop v st' buf') | Some (Res Thrown v st' buf') => switch n has h v st' buf' | r => r end
        | CasesFin b has h f =>
            match (match exec n b u (push st) buf with Some (Res Next v st' buf') => Some (xpop v st' buf') | Some (Res Thrown v st' buf') => switch n has h v st' buf' | r => r end) with
            | Some (Res Next v st' buf') => exec n f v st' buf'
            | r => r
            end
        end
    end
  (* default: in_finally = 1; ...; then xpop_context.  A jump to the context enters the block again *)
  with block (n : nat) (f : stmt) (u : U) (st : list ctx) (buf : Z) {struct n} : option res :=
    match n with
    | O => None
    | S n => match exec n f u (set_fin st) buf with Some (Res Next v st' buf') => Some (xpop v st' buf') | Some (Res Thrown v st' buf') => block n f v st' buf' | r => r end
    end
  (* the cases of the switch; codes without a case leave it *)
  with switch (n : nat) (has : Z -> bool) (h : Z -> stmt) (u : U) (st : list ctx) (buf : Z) {struct n} : option res :=
    match n with
    | O => None
    | S n =>
        if has (top_code st) then match exec n (h (top_code st)) u st buf with Some (Res Next v st' buf') => Some (xpop v st' buf') | Some (Res Thrown v st' buf') => switch n has h v st' buf' | r => r end
        else Some (xpop u st buf)
    end.
End EXCEPT.
Arguments Do {U}. Arguments Raise {U}. Arguments Seq {U}. Arguments Handled {U}. Arguments Fin {U}. Arguments Catch {U}. Arguments Cases {U}. Arguments CasesFin {U}.
Arguments Stuck {U}. Arguments Res {U}. Arguments exec {U}. Arguments block {U}. Arguments switch {U}. Arguments xpop {U}.

(* ---------- index.c 1129-1168 sis_write over a store whose files may fail to open, be written or be removed *)
Record disk := mkDisk { d_os : option nat; d_live : list nat; d_next : nat; d_names : list Z; d_pending : list Z }.
Definition IO_ERROR : Z := 3.
(* fs_store.c fs_new_output: raises, or opens a stream *)
Definition new_output (fails : bool) (name : Z) : stmt disk :=
  Seq (Raise (fun _ => if fails then Some (IO_ERROR, name) else None))
      (Do (fun d => Some (mkDisk (Some (d_next d)) (d_next d :: d_live d) (S (d_next d)) (name :: d_names d) (d_pending d)))).
Definition write (fails : bool) (name : Z) : stmt disk := Raise (fun _ => if fails then Some (IO_ERROR, name) else None).
(* store.c os_close: undefined for NULL and for a stream that has been closed *)
Definition os_close : stmt disk :=
  Do (fun d => do h <- d_os d; if existsb (Nat.eqb h) (d_live d) then Some (mkDisk (d_os d) (filter (fun x => negb (Nat.eqb h x)) (d_live d)) (d_next d) (d_names d) (d_pending d)) else None).
(* index.c 3708-3719 deleter_delete_file *)
Definition delete_file (fails : bool) (name : Z) : stmt disk :=
  Catch (Seq (Raise (fun d => if existsb (Z.eqb name) (d_names d) && fails then Some (IO_ERROR, name) else None))
             (Do (fun d => Some (mkDisk (d_os d) (d_live d) (d_next d) (filter (fun x => negb (Z.eqb name x)) (d_names d)) (filter (fun x => negb (Z.eqb name x)) (d_pending d))))))
        (Do (fun d => Some (mkDisk (d_os d) (d_live d) (d_next d) (d_names d) (name :: d_pending d)))).
(* names: the new segments file, segments (its generation), the segments file before *)
Definition sis_write (open1 write1 open2 write2 remove : bool) (new gen old : Z) : stmt disk :=
  Seq (Fin (Seq (new_output open1 new) (write write1 new)) os_close)
 (Seq (Fin (Seq (new_output open2 gen) (write write2 gen)) (Seq Handled os_close))
      (delete_file remove old)).
