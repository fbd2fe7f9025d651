(* Model of the Ruby classes FieldSymbol (ruby/lib/ferret/field_symbol.rb), Document and Field (ruby/lib/ferret/document.rb), and of what Sort.new makes of symbols (ruby/ext/r_search.c 2384-2407, by SortStr).
   Simplified: what is in an Array or a Field is a string; a boost is a number that equals itself (no NaN); a Hash keeps the order of its keys (Ruby 1.9). *)
From Verif Require Import Util Codec_Model Seg_Model SortStr_Model.
Open Scope Z_scope.

(* field_symbol.rb 2 *)
Inductive ftype := FInteger | FFloat | FString | FByte.
(* a Symbol, or a FieldSymbol with @symbol, @desc and @type *)
Inductive sym := Sym (n : list Z) | FSym (inner : sym) (desc : bool) (type : option ftype).
(* 78-81 *)
Definition fs_new (s : sym) (d : bool) : sym := FSym s d None.
(* 91 attr_writer *)
Definition set_type (s : sym) (t : option ftype) : sym := match s with FSym i d _ => FSym i d t | _ => s end.
(* 65-67 desc? *)
Definition desc_q (s : sym) : bool := match s with FSym _ d _ => d | Sym _ => false end.
(* 70-72 type *)
Definition type_of (s : sym) : option ftype := match s with FSym _ _ t => t | Sym _ => None end.
(* respond_to? of :desc? and :type: a FieldSymbol has no respond_to? of its own, 83-85 method_missing asks the symbol *)
Fixpoint responds (s : sym) : bool := match s with Sym _ => true | FSym i _ _ => responds i end.
(* 48-54: integer, float, string, byte *)
Definition call_type (s : sym) (t : ftype) : sym := set_type (fs_new s (if responds s then desc_q s else false)) (Some t).
(* 58-62 desc *)
Definition call_desc (s : sym) : sym := set_type (fs_new s (if responds s then negb (desc_q s) else true)) (if responds s then type_of s else None).
Inductive call := Type_ (t : ftype) | Desc.
Definition run (s : sym) (cs : list call) : sym := fold_left (fun s c => match c with Type_ t => call_type s t | Desc => call_desc s end) cs s.
(* 83-85 method_missing: to_s, to_sym, id2name *)
Fixpoint to_s (s : sym) : list Z := match s with Sym n => n | FSym i _ _ => to_s i end.
(* TYPE of it: T_SYMBOL or T_OBJECT *)
Definition rval_of (s : sym) : rval := match s with Sym n => RSym n | FSym _ _ _ => ROther end.

(* a value of a document: a String, an Array, a Field with its boost *)
Inductive value := VStr (s : list Z) | VArr (l : list (list Z)) | VField (l : list (list Z)) (boost : Z).
Record doc := mkDoc { d_boost : Z; d_hash : list (list Z * value) }.
(* Hash#[]= : a key that is there keeps its place *)
Fixpoint hput (h : list (list Z * value)) (k : list Z) (v : value) : list (list Z * value) :=
  match h with [] => [(k, v)] | (k', v') :: t => if beqb k' k then (k', v) :: t else (k', v') :: hput t k v end.
Definition hdel (h : list (list Z * value)) (k : list Z) : list (list Z * value) := filter (fun e => negb (beqb (fst e) k)) h.
Fixpoint hget (h : list (list Z * value)) (k : list Z) : option value := match h with [] => None | (k', v) :: t => if beqb k' k then Some v else hget t k end.
Inductive op := Store (k : list Z) (v : value) | Delete (k : list Z) | Boost (b : Z).
Definition step (d : doc) (o : op) : doc :=
  match o with Store k v => mkDoc (d_boost d) (hput (d_hash d) k v) | Delete k => mkDoc (d_boost d) (hdel (d_hash d) k) | Boost b => mkDoc b (d_hash d) end.
(* document.rb 49-51: Document.new(boost), then what is done to it *)
Definition build (b : Z) (ops : list op) : doc := fold_left step ops (mkDoc b []).
Fixpoint list_eqb {A} (eq : A -> A -> bool) (x y : list A) : bool := match x, y with [], [] => true | a :: x', b :: y' => eq a b && list_eqb eq x' y' | _, _ => false end.
(* v == w: String#==, Array#== takes any array, so a Field, too; Field#== (document.rb 115-118) *)
Definition v_eq (v w : value) : bool :=
  match v, w with
  | VStr s, VStr t => beqb s t
  | VArr l, VArr m => list_eqb beqb l m
  | VArr l, VField m _ => list_eqb beqb l m
  | VField l b, VField m c => (c =? b) && list_eqb beqb l m
  | _, _ => false
  end.
(* document.rb 54-57 *)
Definition eql (d o : doc) : bool :=
  (d_boost o =? d_boost d) && list_eqb beqb (map fst (d_hash d)) (map fst (d_hash o)) && list_eqb v_eq (map snd (d_hash d)) (map snd (d_hash o)).
