(* Model of the write lock: the lock objects of c/src/fs_store.c and c/src/ram_store.c, and how IndexWriter and IndexReader use them.
   One lock name; every system call on the lock file is one atomic step.  Not modelled: the waiting loops (a failed attempt may be
   retried by the same step), errors of remove.  The repeated modification below needs the build in which mutexes are no-ops
   (ruby/ext/threading.h); with pthreads the exception leaves ir->mutex locked and the second call blocks for ever.
   The interleaving inside ram_lock_obtain needs the pthread build (c/include/threading.h). *)
From Verif Require Import Util.

(* ---------- lock objects *)
Definition upd_f {A} (f : nat -> A) (i : nat) (v : A) : nat -> A := fun j => if (j =? i)%nat then v else f j.
(* file: the lock file exists; holds i: obtain of client i's lock object has returned true and release has not been called;
   mid i: client i is between two system calls of one function *)
Record lstate := mkL { file : bool; holds : nat -> bool; mid : nat -> bool }.
Definition l_init : lstate := mkL false (fun _ => false) (fun _ => false).
Inductive lact := Obtain (i : nat) | Release (i : nat) | Close (i : nat) | Check (i : nat) | Finish (i : nat).
Inductive fs_step : lstate -> lact -> lstate -> Prop :=
(* fs_store.c:354-373 fs_lock_obtain: open with O_CREAT | O_EXCL *)
| F_obtain s i : file s = false -> fs_step s (Obtain i) (mkL true (upd_f (holds s) i true) (mid s))
| F_busy s i : file s = true -> fs_step s (Obtain i) s
(* fs_store.c:390-393 fs_lock_release *)
| F_release s i : holds s i = true -> fs_step s (Release i) (mkL false (upd_f (holds s) i false) (mid s))
(* fs_store.c:409-414 fs_close_lock_i removes the file too *)
| F_close s i : holds s i = false -> fs_step s (Close i) (mkL false (holds s) (mid s))
(* fs_store.c:375-388 fs_lock_is_locked: exclusive create, then remove *)
| F_check s i : file s = false -> mid s i = false -> fs_step s (Check i) (mkL true (holds s) (upd_f (mid s) i true))
| F_check_locked s i : file s = true -> fs_step s (Check i) s
| F_finish s i : mid s i = true -> fs_step s (Finish i) (mkL false (holds s) (upd_f (mid s) i false)).
Inductive ram_step : lstate -> lact -> lstate -> Prop :=
(* ram_store.c:379-387 ram_lock_obtain: ram_exists, then ram_touch *)
| R_check s i : file s = false -> mid s i = false -> ram_step s (Check i) (mkL false (holds s) (upd_f (mid s) i true))
| R_busy s i : file s = true -> ram_step s (Check i) s
| R_touch s i : mid s i = true -> ram_step s (Finish i) (mkL true (upd_f (holds s) i true) (upd_f (mid s) i false))
(* ram_store.c:394-397 ram_lock_release, 412-416 ram_close_lock_i *)
| R_release s i : holds s i = true -> ram_step s (Release i) (mkL false (upd_f (holds s) i false) (mid s))
| R_close s i : ram_step s (Close i) s.
Inductive lrun (step : lstate -> lact -> lstate -> Prop) : lstate -> list lact -> lstate -> Prop :=
| L_nil s : lrun step s [] s
| L_cons s a s' l s'' : step s a s' -> lrun step s' l s'' -> lrun step s (a :: l) s''.

(* ---------- writers and readers on a file system store *)
(* writer i: an IndexWriter is open; lockobj i: ir->write_lock is not NULL; changes i: the reader has accepted modifications *)
Record wstate := mkW { wfile : bool; writer : nat -> bool; lockobj : nat -> bool; changes : nat -> bool }.
Definition w_init : wstate := mkW false (fun _ => false) (fun _ => false) (fun _ => false).
Inductive wact := OpenWriter (i : nat) | CloseWriter (i : nat) | Modify (i : nat) | CommitReader (i : nat) | IsLocked (i : nat).
Definition wstep (s : wstate) (a : wact) : wstate :=
  match a with
  (* index.c:6484-6525 iw_open: when obtain fails the handler still releases and closes the lock *)
  | OpenWriter i => if writer s i then s
                    else if wfile s then mkW false (writer s) (lockobj s) (changes s)
                    else mkW true (upd_f (writer s) i true) (lockobj s) (changes s)
  (* index.c:6455-6482 iw_close *)
  | CloseWriter i => if writer s i then mkW false (upd_f (writer s) i false) (lockobj s) (changes s) else s
  (* index.c:3882-3919 ir_acquire_write_lock of an up to date reader, followed by the modification *)
  | Modify i => if lockobj s i then mkW (wfile s) (writer s) (lockobj s) (upd_f (changes s) i true)
                else if wfile s then mkW true (writer s) (upd_f (lockobj s) i true) (changes s)
                else mkW true (writer s) (upd_f (lockobj s) i true) (upd_f (changes s) i true)
  (* index.c:4100-4134 ir_commit_i *)
  | CommitReader i => if changes s i then
                        (if lockobj s i then mkW false (writer s) (upd_f (lockobj s) i false) (upd_f (changes s) i false)
                         else mkW (wfile s) (writer s) (lockobj s) (upd_f (changes s) i false))
                      else s
  (* index.c:6175-6181 index_is_locked: is_locked, then close_lock *)
  | IsLocked i => mkW false (writer s) (lockobj s) (changes s)
  end.
Definition wrun (s : wstate) (l : list wact) : wstate := fold_left wstep l s.
