(* The postings of a term over several segments: those of the segments one after the other, shifted. *)
From Verif Require Import Util Strcmp Dict_Model Dict_Spec Post_Model Post_Spec Multi_Model Mte_Model Mte_Spec Mtde_Model.
Open Scope Z_scope.

(* a segment: its intervals, the number of its documents, and what is indexed *)
Record pseg := mkPseg { v_int : nat; v_kn : nat; v_size : Z; v_fs : list (Z * list (list Z * list post)) }.
Definition pseg_ok (v : pseg) : Prop := (1 <= v_int v)%nat /\ Z.of_nat (v_int v) < 2 ^ 31 /\ (3 <= v_kn v)%nat /\ Z.of_nat (v_kn v) < 2 ^ 31 /\ inv_ok (v_fs v) /\
  0 <= v_size v /\ forall f t, Forall (fun p => fst p < v_size v) (postings (v_fs v) f t).
Definition popened (v : pseg) (g : psrc) : Prop := dw_flush (Z.of_nat (v_int v)) (Z.of_nat (v_kn v)) (v_fs v) = Some (fst g) /\ sfi_open (g_dict (fst g)) = Some (snd g).
Fixpoint pstarts (b : Z) (vs : list pseg) : list Z := b :: match vs with [] => [] | v :: t => pstarts (b + v_size v) t end.

Definition shift (b : Z) (p : post) : post := (b + fst p, snd p).
Definition within (mp : option (list (list Z))) (f : Z) (i : nat) (v : pseg) (t : list Z) : list post :=
  match fnum mp i f with Some m => if 0 <=? m then postings (v_fs v) m t else [] | None => [] end.
Fixpoint joined (mp : option (list (list Z))) (f : Z) (t : list Z) (i : nat) (b : Z) (vs : list pseg) : list post :=
  match vs with [] => [] | v :: r => map (shift b) (within mp f i v t) ++ joined mp f t (S i) (b + v_size v) r end.
(* the cursor of Post_Spec on such lists *)
Definition look (mp : option (list (list Z))) (vs : list pseg) (f : Z) (t : list Z) : list post := joined mp f t O 0 vs.
Definition mspec_step (mp : option (list (list Z))) (vs : list pseg) (c : pcur) (o : pop) : pres * pcur :=
  match o with PSeek f t => (PUnit, (look mp vs f t, [])) | _ => pspec_step [] c o end.
Fixpoint mspec_run (mp : option (list (list Z))) (vs : list pseg) (c : pcur) (os : list pop) : list pres :=
  match os with [] => [] | o :: t => let '(r, c') := mspec_step mp vs c o in r :: mspec_run mp vs c' t end.

(* the same on the files *)
Definition mtde_step (pos : bool) (gs : list psrc) (starts : list Z) (mp : option (list (list Z))) (m : mtd) (o : pop) : option (pres * mtd) :=
  match o with
  | PSeek f t => do m' <- mtde_seek pos gs starts mp m f t; Some (PUnit, m')
  | PNext del => do r <- mtde_next pos gs starts (S (S (length gs))) del m; Some (PDoc (fst r), snd r)
  | PSkip del target => do r <- mtde_skip pos gs starts (S (S (length gs))) del target m; Some (PDoc (fst r), snd r)
  | PRead del k => do r <- mtde_read gs starts (2 * length gs + 2) del [] k m; Some (PDocs (fst r), snd r)
  | PPos => do r <- mtpe_next_position m; Some (PPosn (fst r), snd r)
  end.
Fixpoint mtde_run (pos : bool) (gs : list psrc) (starts : list Z) (mp : option (list (list Z))) (m : mtd) (os : list pop) : option (list pres) :=
  match os with
  | [] => Some []
  | o :: t => do r <- mtde_step pos gs starts mp m o; do q <- mtde_run pos gs starts mp (snd r) t; Some (fst r :: q)
  end.
(* term_docs: seeks either find something or come when everything has been read; reads ask for something *)
Fixpoint docs_ok (mp : option (list (list Z))) (vs : list pseg) (c : pcur) (os : list pop) : Prop :=
  match os with
  | [] => True
  | o :: t => match o with
              | PSeek f x => field_in mp (length vs) f /\ (look mp vs f x <> [] \/ fst c = [])
              | PRead _ k => (1 <= k)%nat
              | PPos => False
              | _ => True end /\ docs_ok mp vs (snd (mspec_step mp vs c o)) t
  end.
(* term_positions after one seek: moves, and as many positions as there are *)
Fixpoint pos_ok (c : pcur) (os : list pop) : Prop :=
  match os with
  | [] => True
  | o :: t => match o with PNext _ | PSkip _ _ => True | PPos => snd c <> [] | _ => False end /\ pos_ok (snd (pspec_step [] c o)) t
  end.
