(* HashModel.v: model of src/ccpp_hash_table.F90.
   The stored objects (class(ccpp_hashable_t), pointer) are an arbitrary type V
   with a key function; pointers to them are the values themselves.
   Simplification throughout: the optional argument errmsg is always present
   (every caller in src/ccpp_constituent_prop_mod.F90 passes it to
   table_value/add_hash_key), so an error is returned rather than STOP. *)
From Verif Require Import Base.
Set Implicit Arguments.
Open Scope Z_scope.

(* src/ccpp_hash_table.F90 L13: gen_hash_key_offset *)
Definition gen_hash_key_offset : Z := 21467.
(* src/ccpp_hash_table.F90 L15: tbl_max_idx *)
Definition tbl_max_idx : nat := 15.
(* src/ccpp_hash_table.F90 L16-17: tbl_gen_hash_key, indexed from 0 *)
Definition tbl_gen_hash_key : list Z :=
  [61; 59; 53; 47; 43; 41; 37; 31; 29; 23; 17; 13; 11; 7; 3; 1].

(* L184-191: the loop of hash_table_key_hash over the characters of
   string(1:len_trim(string)).  ichar is the ASCII code. 32-bit wrap-around of
   the product and xor is not modelled: the products are below 2^14. *)
Fixpoint key_hash_loop (s : string) (ind_fact : nat) (hash : Z) : Z :=
  match s with
  | EmptyString => hash
  | String c r =>
      let ind_fact1 := S ind_fact in
      let ind_fact2 := if Nat.ltb tbl_max_idx ind_fact1 then 1%nat else ind_fact1 in
      let hash_fact := nth ind_fact2 tbl_gen_hash_key 0 in
      key_hash_loop r ind_fact2 (Z.lxor hash (Z.of_nat (nat_of_ascii c) * hash_fact))
  end.

(* L153-202 hash_table_key_hash: None is the "out of bounds" error. *)
Definition key_hash (table_size key_offset : Z) (s : string) : option Z :=
  let hash := key_hash_loop (rtrim s) 0 key_offset in
  let hash_key := Z.land hash (table_size - 1) + 1 in
  if (hash_key <? 1) || (table_size <? hash_key) then None else Some hash_key.

Section HashTable.
Variable V : Type.
Variable key : V -> string.

(* L22-28 table_entry_t: an entry_value pointer and the chain of entries
   reached through next (each with its own, possibly null, entry_value). *)
Record bucket := mkBucket { b_val : option V; b_next : list (option V) }.

(* L30-48 ccpp_hash_table_t *)
Record htable := mkTable {
  ht_table : option (list bucket);     (* table(:), None = not allocated *)
  ht_size : Z;                         (* table_size *)
  ht_off : Z;                          (* key_offset *)
  ht_keys : Z;                         (* num_keys *)
  ht_coll : Z;                         (* num_key_collisions *)
  ht_maxc : Z }.                       (* max_collision *)

(* L33-39: default initialisation of ccpp_hash_table_t *)
Definition ht_new : htable := mkTable None (-1) gen_hash_key_offset 0 0 0.

(* default initialisation of table_entry_t, L24-25 *)
Definition empty_bucket : bucket := mkBucket None [].

(* L120-128 hash_table_is_initialized *)
Definition ht_is_initialized (t : htable) : bool :=
  match ht_table t with Some _ => true | None => false end.

(* L132-152 hash_table_initialize_table.  bit_size(1) = 32.  ishft by a negative
   amount is a right shift, as Z.shiftl. *)
Definition ht_initialize (t : htable) (tbl_size : Z) (key_off : option Z) : htable :=
  let sz := Z.shiftl 1 (Z.min tbl_size (32 - 2)) in
  mkTable (Some (repeat empty_bucket (Z.to_nat sz))) sz
          (match key_off with Some k => k | None => ht_off t end) 0 0 0.

(* Outcome of an operation that can fail. OOob marks a read or write outside
   the allocated table, which the Fortran source does not check for. *)
Inductive res (A : Type) := ROk (a : A) | RErr | ROob.
Arguments ROk {A} a. Arguments RErr {A}. Arguments ROob {A}.

(* 1-based array access table(i) *)
Definition tbl_at (t : htable) (i : Z) : option bucket :=
  if i <? 1 then None
  else match ht_table t with
       | None => None
       | Some tb => nth_error tb (Z.to_nat (i - 1))
       end.

(* L241-255: the do loop over the overflow chain in hash_table_table_value *)
Fixpoint chain_find (k : string) (ch : list (option V)) : option V :=
  match ch with
  | [] => None
  | Some v :: r => if feqb (key v) k then Some v else chain_find k r
  | None :: r => chain_find k r
  end.

(* L206-266 hash_table_table_value: RErr = null pointer with errmsg set *)
Definition ht_value (t : htable) (k : string) : res V :=
  match key_hash (ht_size t) (ht_off t) k with
  | None => RErr
  | Some h =>
      match tbl_at t h with
      | None => ROob
      | Some b =>
          match b_val b with
          | None => RErr
          | Some v =>
              if feqb (key v) k then ROk v
              else match chain_find k (b_next b) with
                   | Some w => ROk w
                   | None => RErr
                   end
          end
      end
  end.

(* L270-336 hash_table_add_hash_key.  The walk to the end of the chain
   (L311-322) is append; ovflw_len is the resulting chain length. *)
Definition ht_add (t : htable) (v : V) : res unit * htable :=
  match key_hash (ht_size t) (ht_off t) (key v) with
  | None => (RErr, t)
  | Some h =>
      match ht_value t (key v) with
      | ROob => (ROob, t)
      | ROk _ => (RErr, t)
      | RErr =>
          match tbl_at t h, ht_table t with
          | Some b, Some tb =>
              let i := Z.to_nat (h - 1) in
              match b_val b with
              | Some _ =>
                  let ch := b_next b ++ [Some v] in
                  let coll := match b_next b with [] => ht_coll t + 1 | _ => ht_coll t end in
                  (ROk tt,
                   mkTable (Some (list_set tb i (mkBucket (b_val b) ch)))
                           (ht_size t) (ht_off t) (ht_keys t + 1) coll
                           (Z.max (ht_maxc t) (Z.of_nat (length ch))))
              | None =>
                  (ROk tt,
                   mkTable (Some (list_set tb i (mkBucket (Some v) (b_next b))))
                           (ht_size t) (ht_off t) (ht_keys t + 1) (ht_coll t) (ht_maxc t))
              end
          | _, _ => (ROob, t)
          end
      end
  end.

(* L340-354 hash_table_num_values *)
Definition ht_num_values (t : htable) : Z := ht_keys t.

(* L358-382 hash_table_clear_table (key_offset is kept) *)
Definition ht_clear (t : htable) : htable := mkTable None (-1) (ht_off t) 0 0 0.

(* ---- Iterator, L50-61 ---- *)
(* table_entry => NULL() is None; a pointer into the overflow chain is the
   non-empty rest of the chain that starts at the pointed-to entry. *)
Record iter := mkIter { it_index : Z; it_entry : option (list (option V)) }.

(* L402-411: the do loop of hash_iterator_initialize from index i, where [tb]
   is table(i:).  Reading table(table_size+1) (the bound is only tested
   afterwards, L407) is an access out of bounds: None. *)
Fixpoint iter_init_loop (tb : list bucket) (i : Z) : option iter :=
  match tb with
  | [] => None
  | b :: r => match b_val b with
              | Some _ => Some (mkIter i None)
              | None => iter_init_loop r (i + 1)
              end
  end.

(* L390-412 hash_iterator_initialize *)
Definition iter_initialize (t : htable) : option iter :=
  match ht_table t with
  | None => None
  | Some tb => iter_init_loop tb 1
  end.

(* L481-494 hash_iterator_is_valid *)
Definition iter_valid (t : htable) (it : iter) : bool :=
  (0 <? it_index it) && (it_index it <=? ht_size t).

(* L498-514 hash_iterator_value: None is the null pointer *)
Definition iter_value (t : htable) (it : iter) : option V :=
  if iter_valid t it then
    match it_entry it with
    | Some (e :: _) => e
    | Some [] => None
    | None => match tbl_at t (it_index it) with
              | Some b => b_val b
              | None => None
              end
    end
  else None.

(* L455-469: the do loop of next_entry from index i, where [tb] is table(i+1:) *)
Fixpoint iter_next_loop (tb : list bucket) (i : Z) : iter :=
  match tb with
  | [] => mkIter 0 None                  (* index >= table_size *)
  | b :: r => match b_val b with
              | Some _ => mkIter (i + 1) None
              | None => iter_next_loop r (i + 1)
              end
  end.

(* L434-476 hash_iterator_next_entry *)
Definition iter_next (t : htable) (it : iter) : iter :=
  if 0 <? it_index it then
    let chain_next :=
      match it_entry it with
      | Some (_ :: ((_ :: _) as r)) => Some r
      | Some _ => None
      | None => match tbl_at t (it_index it) with
                | Some b => match b_next b with [] => None | ch => Some ch end
                | None => None
                end
      end in
    match chain_next with
    | Some ch => mkIter (it_index it) (Some ch)
    | None =>
        match ht_table t with
        | None => mkIter 0 None
        | Some tb => iter_next_loop (skipn (Z.to_nat (it_index it)) tb) (it_index it)
        end
    end
  else mkIter (it_index it) None.

(* The usual client loop (e.g. src/ccpp_constituent_prop_mod.F90 L1340-1420):
   do while valid: use value; call next.  None = out of fuel. *)
Fixpoint iter_collect (fuel : nat) (t : htable) (it : iter) : option (list (option V)) :=
  match fuel with
  | O => None
  | S f =>
      if iter_valid t it then
        match iter_collect f t (iter_next t it) with
        | Some l => Some (iter_value t it :: l)
        | None => None
        end
      else Some []
  end.

(* ---- Operation histories ---- *)
Inductive hop :=
| HInit (tbl_size : Z) (key_off : option Z)
| HAdd (v : V)
| HValue (k : string)
| HNum
| HIsInit
| HClear.

Inductive hout :=
| HDone | HFail | HOob | HVal (v : V) | HCount (n : Z) | HBool (b : bool).

Definition hstep (t : htable) (o : hop) : htable * hout :=
  match o with
  | HInit e k => (ht_initialize t e k, HDone)
  | HAdd v => match ht_add t v with
              | (ROk _, t') => (t', HDone)
              | (RErr, t') => (t', HFail)
              | (ROob, t') => (t', HOob)
              end
  | HValue k => match ht_value t k with
                | ROk v => (t, HVal v)
                | RErr => (t, HFail)
                | ROob => (t, HOob)
                end
  | HNum => (t, HCount (ht_num_values t))
  | HIsInit => (t, HBool (ht_is_initialized t))
  | HClear => (ht_clear t, HDone)
  end.

Fixpoint hrun (t : htable) (ops : list hop) : htable * list hout :=
  match ops with
  | [] => (t, [])
  | o :: r => let '(t1, out) := hstep t o in
              let '(t2, outs) := hrun t1 r in (t2, out :: outs)
  end.
End HashTable.

Arguments ROk {A} a. Arguments RErr {A}. Arguments ROob {A}.
Arguments HInit {V}. Arguments HAdd {V}. Arguments HValue {V}. Arguments HNum {V}.
Arguments HIsInit {V}. Arguments HClear {V}.
Arguments HDone {V}. Arguments HFail {V}. Arguments HOob {V}. Arguments HVal {V}.
Arguments HCount {V}. Arguments HBool {V}.
Arguments ht_new {V}. Arguments mkBucket {V}. Arguments mkIter {V}.
