(* C12, C13: hash tables and hash sets. *)
From Verif Require Import Util Hash_Model Hash_Spec Hash_Proofs HashSet_Model HashSet_Spec HashSet_Proofs.
From Coq Require Import Sorting.Permutation.
Open Scope nat_scope.

(* ---------------- C12: a hash table is a finite map *)
(* Any history, any hash function compatible with equality: no operation loops or leaves the table, every answer is
   the one of an association list, and iteration visits exactly the entries of that list. *)
Theorem C12_table_is_map : forall (K V : Type) (hash : K -> Z) eqb same by_ptr, key_ok hash eqb same by_ptr ->
  forall ops : list (hop K V), exists h,
  h_run K V eqb same hash by_ptr (h_new K V) ops = Some (fst (m_run K V eqb same [] ops), h) /\
  exists l, h_each K V h = Some l /\ Permutation l (map (fun e => (fst e, Some (snd e))) (snd (m_run K V eqb same [] ops))).
Proof. exact table_is_map. Qed.
Print Assumptions C12_table_is_map.

(* The same, read off the history: a look-up returns the value last stored under an equal key and not removed since. *)
Theorem C12_get_returns_last_value : forall (K V : Type) (hash : K -> Z) eqb same by_ptr, key_ok hash eqb same by_ptr ->
  forall (ops : list (hop K V)) rs h, h_run K V eqb same hash by_ptr (h_new K V) ops = Some (rs, h) ->
  forall k, exists h', h_get K V hash eqb same by_ptr h k = Some (last_val eqb k (rev ops), h').
Proof. exact get_is_last. Qed.
Print Assumptions C12_get_returns_last_value.

(* string tables satisfy the assumptions on keys *)
Theorem C12_string_keys : key_ok (fun k => str_hash (snd k)) str_eqb str_same false.
Proof. exact str_keys_ok. Qed.
Print Assumptions C12_string_keys.

(* Ten string keys, three of them with colliding slots, a removal and an overwrite; the table has been resized. *)
Example C12_example :
  let k (n : Z) : sptr := (Z.to_nat n, [n; 100])%Z in
  let ops := map (fun n => HSet (k n) n) [1; 2; 3; 4; 5; 6; 7; 8; 9; 10]%Z ++
             [HDel (k 3%Z); HGet (k 3%Z); HSet (99, [4; 100]%Z) 44%Z; HGet (k 4%Z); HHas (k 4%Z); HSetSafe (k 5%Z) 0%Z; HSize] in
  match h_run sptr Z str_eqb str_same (fun k => str_hash (snd k)) false (h_new _ _) ops with
  | Some (rs, h) => skipn 10 rs = [RBool true; RVal None; RStatus KeyEqual; RVal (Some 44%Z); RStatus KeyEqual; RBool false; RSize 9] /\
                    length (h_tbl h) = 16
  | None => False
  end.
Proof. vm_compute. auto. Qed.
(* all keys in one slot *)
Example C12_collision_example :
  let ops := [HSet 1 10; HSet 2 20; HSet 3 30; HDel 2; HGet 3; HSet 4 40; HGet 2; HGet 4; HSize] in
  option_map fst (h_run nat nat Nat.eqb Nat.eqb (fun _ => 5%Z) false (h_new _ _) ops) =
  Some [RStatus DoesNotExist; RStatus DoesNotExist; RStatus DoesNotExist; RBool true; RVal (Some 30);
        RStatus DoesNotExist; RVal None; RVal (Some 40); RSize 3].
Proof. vm_compute. reflexivity. Qed.

(* ---------------- C13: a hash set keeps insertion order *)
Theorem C13_set_is_ordered_list : forall (K : Type) (hash : K -> Z) eqb same by_ptr, key_ok hash eqb same by_ptr ->
  forall ops, exists s, s_run K eqb same hash by_ptr (hs_new K) ops = Some (fst (l_run K eqb same [] ops), s) /\
    hs_elems K s = Some (snd (l_run K eqb same [] ops)) /\ hs_size s = length (snd (l_run K eqb same [] ops)).
Proof. exact set_is_list. Qed.
Print Assumptions C13_set_is_ordered_list.
(* the specification never lists two equal members *)
Theorem C13_members_distinct : forall (K : Type) (eqb same : K -> K -> bool), (forall a b, eqb a b = eqb b a) ->
  forall ops, ForallOrdPairs (fun a b => eqb a b = false) (snd (l_run K eqb same [] ops)).
Proof. exact members_distinct. Qed.
Print Assumptions C13_members_distinct.
Example C13_example :
  option_map fst (s_run nat Nat.eqb Nat.eqb (fun k => Z.of_nat (k mod 3)) false (hs_new nat)
    [SAdd 7; SAdd 4; SAdd 9; SAdd 4; SElems; SDel 7; SElems; SDel 9; SAdd 7; SElems; SMerge [7; 12; 4; 12; 1]; SRem 12; SElems; SSize]) =
  Some [SStatus DoesNotExist; SStatus DoesNotExist; SStatus DoesNotExist; SStatus KeySame; SList [7; 4; 9]; SBool true; SList [4; 9];
        SBool true; SStatus DoesNotExist; SList [4; 7]; SUnit; SElem (Some 12); SList [4; 7; 1]; SNum 3].
Proof. vm_compute. reflexivity. Qed.
