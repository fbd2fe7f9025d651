(* Which page of which documents a search is to return. *)
From Coq Require Import Sorting.Permutation.
From Verif Require Import Util Codec_Model Strcmp Seg_Model Dict_Model Token_Model Fields_Model Query_Model Expand_Model Fuzzy_Model Range_Model Range_Spec Tsc_Model Invert_Spec Find_Spec Search_Model Search_Spec Sort_Model Look_Model Look_Spec Page_Model.
Open Scope Z_scope.

(* the greatest of some terms *)
Definition higher (t : list Z) (m : option (list Z)) : option (list Z) := match m with None => Some t | Some u => Some (if sltb u t then t else u) end.
Definition highest (ts : list (list Z)) : option (list Z) := fold_right higher None ts.
Section SPEC.
  Variable ana : list Z -> list Z -> list token.
  Variables (max : Z) (F : field_infos).
  Variables (scan_ld scan_g len_d len_f : list Z -> option Z) (coll : list Z -> list Z -> Z).
  (* what a document is sorted by: its greatest term of the field *)
  Definition field_of (f : list Z) (x : document) : option (list Z) := match fis_get F f with Some (n, _) => highest (map o_text (occs_in ana max F n x)) | None => None end.
  Definition number_of (scan : list Z -> option Z) (o : option (list Z)) : Z := match o with Some t => match scan t with Some v => v | None => 0 end | None => 0 end.
  (* one hit before another, or neither *)
  Definition before (ty : stype) (f : list Z) (a b : hit * document) : Prop :=
    match ty with
    | TScore => h_score (fst b) < h_score (fst a)
    | TDoc => h_doc (fst a) < h_doc (fst b)
    | TByte => match field_of f (snd a), field_of f (snd b) with Some t, Some u => slt t u | None, Some _ => True | _, None => False end
    | TInteger => number_of scan_ld (field_of f (snd a)) < number_of scan_ld (field_of f (snd b))
    | TFloat => number_of scan_g (field_of f (snd a)) < number_of scan_g (field_of f (snd b))
    | TString => str_lt coll (field_of f (snd a)) (field_of f (snd b))
    end.
  Definition level (ty : stype) (f : list Z) (a b : hit * document) : Prop :=
    match ty with
    | TScore => h_score (fst a) = h_score (fst b)
    | TDoc => h_doc (fst a) = h_doc (fst b)
    | TByte => field_of f (snd a) = field_of f (snd b)
    | TInteger => number_of scan_ld (field_of f (snd a)) = number_of scan_ld (field_of f (snd b))
    | TFloat => number_of scan_g (field_of f (snd a)) = number_of scan_g (field_of f (snd b))
    | TString => str_eq coll (field_of f (snd a)) (field_of f (snd b))
    end.
  (* by the first field, hits that are level by the next; in the end by number *)
  Fixpoint by_fields (l : list (sfield * stype)) (a b : hit * document) : Prop :=
    match l with
    | [] => h_doc (fst a) <= h_doc (fst b)
    | (s, ty) :: r => (if sf_rev s then before ty (sf_field s) b a else before ty (sf_field s) a b) \/ level ty (sf_field s) a b /\ by_fields r a b
    end.

  Variable slots : list (option document).
  Definition stored (h : hit) (x : document) : Prop := 0 <= h_doc h /\ nth_error slots (Z.to_nat (h_doc h)) = Some (Some x).
  Definition in_order (sort : option (list sfield)) (tys : list stype) (a b : hit) : Prop :=
    match sort with None => by_score a b | Some l => exists x y, stored a x /\ stored b y /\ by_fields (combine l tys) (a, x) (b, y) end.
  Variable sim : fscore -> Z.
  (* the query is true of the document and the filter lets it pass *)
  Definition wanted (q : request) (d : Z) : Prop :=
    exists k x, d = Z.of_nat k /\ nth_error slots k = Some (Some x) /\ sat sim (doc_has ana max F x) (doc_phrase ana max F x) (rq_query q) /\
      match rq_filter q with None => True | Some (f, g) => doc_has ana max F x f (in_range g) end.
  (* the page of a search for the documents of W: how many there are, the hits from rq_first on in the only order there is, the highest score *)
  Definition answered_by (W : Z -> Prop) (p : request * list stype) (o : outcome topdocs) : Prop :=
    let q := fst p in
    exists td L R, o = Ok td /\ StronglySorted Z.lt L /\ (forall d, In d L <-> W d) /\
      let hits := map (fun d => mkHit d (rq_score q d)) L in
      ranking (in_order (rq_sort q) (snd p)) hits R /\ (forall R', ranking (in_order (rq_sort q) (snd p)) hits R' -> R' = R) /\
      td_total td = Z.of_nat (length L) /\ td_hits td = slice (rq_first q) (rq_num q) R /\
      (hits <> [] -> Forall (fun h => 0 <= h_score h) hits -> is_best hits (td_max td)).
  Definition answered (p : request * list stype) (o : outcome topdocs) : Prop := answered_by (wanted (fst p)) p o.

  (* the type a field is sorted by. A field that is sorted by numbers has them in the documents. A type that is left to the index is
     that of all terms that the field ever had *)
  Variable docs : list document.
  (* an integer if %d reads all of it, a float if %f does, otherwise a string *)
  Definition whole (len : option Z) (t : list Z) : Prop := len = Some (Z.of_nat (length t)).
  Definition kind (t : list Z) (ty : stype) : Prop :=
    t <> [] /\ (whole (len_d t) t /\ ty = TInteger \/ ~ whole (len_d t) t /\ whole (len_f t) t /\ ty = TFloat \/ ~ whole (len_d t) t /\ ~ whole (len_f t) t /\ ty = TString).
  Definition typed (s : sfield) (ty : stype) : Prop :=
    match ty with TScore | TDoc => True | _ => fis_get F (sf_field s) <> None end /\
    match ty with
    | TInteger => forall x t, In (Some x) slots -> field_of (sf_field s) x = Some t -> scan_ld t <> None
    | TFloat => forall x t, In (Some x) slots -> field_of (sf_field s) x = Some t -> scan_g t <> None
    | _ => True
    end /\
    (sf_type s = Is ty \/
     sf_type s = Auto /\ fis_get F (sf_field s) <> None /\ (exists x, In (Some x) slots /\ field_of (sf_field s) x <> None) /\
     forall n i d o, fis_get F (sf_field s) = Some (n, i) -> In d docs -> In o (occs_in ana max F n d) -> kind (o_text o) ty).
  Definition page_ok (q : request) (tys : list stype) : Prop :=
    0 <= rq_first q /\ 1 <= rq_num q /\ (rq_num q = Search_Model.INT_MAX \/ rq_num q + rq_first q <= Search_Model.INT_MAX) /\
    match rq_sort q with None => tys = [] | Some sort => Forall2 typed sort tys end.
End SPEC.
