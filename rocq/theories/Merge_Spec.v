(* What merging segments is to the users of an index: the documents that are not deleted, numbered through, each with the postings, stored
   fields and norms it had. *)
From Verif Require Import Util Codec_Model Codec_Spec Strcmp Dict_Model Dict_Spec Post_Model Post_Spec Mte_Spec Merge_Model.
Open Scope Z_scope.

(* a segment: its inverted index, its number of documents, its deletions *)
Record mseg := mkMseg { s_fs : list (Z * list (list Z * list post)); s_max : nat; s_del : option (Z -> bool) }.
Definition dead (s : mseg) (d : Z) : bool := match s_del s with Some f => f d | None => false end.
(* the documents below n that are not deleted *)
Definition rank (del : Z -> bool) (n : nat) : nat := length (filter (fun i => negb (del (Z.of_nat i))) (seq 0 n)).
Definition live_docs (s : mseg) : nat := rank (dead s) (s_max s).
(* the postings of a segment in the merged one: base documents come before *)
Definition renum (base : nat) (del : Z -> bool) (l : list post) : list post :=
  map (fun p => (Z.of_nat (base + rank del (Z.to_nat (fst p))), snd p)) (filter (fun p => negb (del (fst p))) l).
Fixpoint gather (base : nat) (ss : list mseg) (n : Z) (t : list Z) : list post :=
  match ss with [] => [] | s :: r => renum base (dead s) (postings (s_fs s) n t) ++ gather (base + live_docs s) r n t end.

(* every term once, in order, of those that are in a document that is not deleted *)
Definition field_terms (fs : list (Z * list (list Z * list post))) (n : Z) : list (list Z * list post) :=
  match find (fun x => fst x =? n) fs with Some (_, l) => l | None => [] end.
Definition all_terms (ss : list mseg) (n : Z) : list (list Z) := fold_right insert [] (map fst (concat (map (fun s => field_terms (s_fs s) n) ss))).
Definition keep {A} (x : list Z * list A) : bool := match snd x with [] => false | _ => true end.
Definition merged_field (ss : list mseg) (n : Z) : list (list Z * list post) := filter keep (map (fun t => (t, gather O ss n t)) (all_terms ss n)).
Definition merged (nf : nat) (ss : list mseg) : list (Z * list (list Z * list post)) := map (fun n => (Z.of_nat n, merged_field ss (Z.of_nat n))) (seq 0 nf).

(* segments: documents below max_doc *)
Definition mseg_ok (s : mseg) : Prop :=
  inv_ok (s_fs s) /\ Forall (fun f => Forall (fun x => Forall (fun p => fst p < Z.of_nat (s_max s)) (snd x)) (snd f)) (s_fs s).
(* sizes of the merged segment: the numbers it stores fit their types *)
Definition total (ss : list mseg) : nat := fold_right (fun s z => (live_docs s + z)%nat) O ss.
Definition weight (l : list post) : nat := (5 * length (concat (map snd l)) + 40 * length l)%nat.
Definition fits (nf : nat) (ss : list mseg) : Prop :=
  Z.of_nat (total ss) <= 2 ^ 30 /\ Z.of_nat nf < 2 ^ 31 /\
  Forall (fun f => Z.of_nat (length (snd f)) < 2 ^ 31 - 1 /\ Forall (fun x => Z.of_nat (weight (snd x)) < 2 ^ 32) (snd f)) (merged nf ss) /\
  Z.of_nat (length (concat (map snd (merged nf ss)))) < 2 ^ 48 /\ Z.of_nat (weight (concat (map snd (concat (map snd (merged nf ss)))))) < 2 ^ 62.
(* terms that leave the term buffer of the merger room for an index interval of them: 252 bytes at the default interval of 128 *)
Definition short (interval : nat) (s : mseg) : Prop :=
  Forall (fun f => Forall (fun x => ((interval + 2) * (length (fst x) + 1) <= (interval + 1) * MAX_WORD_SIZE + 1)%nat) (snd f)) (s_fs s).
(* the segment as the merger gets it: its files, opened *)
Definition lays (s : mseg) (x : min_) : Prop :=
  (exists I kn, (1 <= I)%nat /\ Z.of_nat I < 2 ^ 31 /\ (1 <= kn)%nat /\ Z.of_nat kn < 2 ^ 31 /\ dw_flush (Z.of_nat I) (Z.of_nat kn) (s_fs s) = Some (i_seg x)) /\
  sfi_open (g_dict (i_seg x)) = Some (i_sfi x) /\ i_max x = s_max s /\ i_del x = s_del s.

(* stored fields: a document is its bytes in the fdt file and the place of its term vectors in them *)
Notation doc := (list Z * Z)%type.
Definition fdt_of (ds : list doc) : list Z := concat (map fst ds).
Fixpoint fdx_of (off : nat) (ds : list doc) : list Z :=
  match ds with [] => [] | d :: r => enc_64 (Z.of_nat off) ++ enc_32 (snd d) ++ fdx_of (off + length (fst d)) r end.
Definition live_of {A} (del : Z -> bool) (l : list A) : list A :=
  map snd (filter (fun x => negb (del (Z.of_nat (fst x)))) (combine (seq 0 (length l)) l)).
Definition doc_ok (d : doc) : Prop := 0 <= snd d < 2 ^ 32.
