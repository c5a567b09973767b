(* ConstModel.v: model of ccpp_model_constituents_t in
   src/ccpp_constituent_prop_mod.F90 (L139-197 and L1051-1932).
   Property objects are identified by numbers (pointers); [heap] gives the
   current contents of each object.  Simplifications: the optional errcode and
   errmsg arguments are always present and only "errcode /= 0" is kept;
   vars_layer_tend is not modelled; an array slab vars_layer(:,:,i) is a list of
   columns; reuse of a freed object is flagged as undefined instead of modelled. *)
From Verif Require Import Base HashModel ConstPropModel.
Set Implicit Arguments.
Open Scope Z_scope.

Definition slab := list (list Z).

(* L139-160 ccpp_model_constituents_t *)
Record mconst := mkMC {
  m_heap : nat -> cprop;
  m_hash : htable nat;
  m_tlock : bool;                         (* table_locked *)
  m_dlock : bool;                         (* data_locked *)
  m_nlayer : Z;                           (* num_layer_vars *)
  m_nadv : Z;                             (* num_advected_vars *)
  m_nlev : Z;                             (* num_layers *)
  m_meta : option (list (option nat));    (* const_metadata *)
  m_vars : option (list slab);            (* vars_layer *)
  m_minv : option (list Z) }.             (* vars_minvalue *)

(* default initialisation, L145-159 *)
Definition mc_new (h : nat -> cprop) : mconst :=
  mkMC h ht_new false false 0 0 0 None None None.

(* L339-347 ccp_properties_get_key *)
Definition okey (h : nat -> cprop) (id : nat) : string := ostr (p_std_name (h id)).

Definition upd {A} (h : nat -> A) (i : nat) (x : A) : nat -> A :=
  fun j => if Nat.eqb i j then x else h j.

(* Outcomes of a call: success, error return, or behaviour the Fortran standard
   leaves undefined (out-of-bounds access, unallocated read). *)
Inductive mout := MOk | MErr | MUndef.

(* L1051-1080 ccp_model_const_locked *)
Definition mc_locked (s : mconst) : bool :=
  ht_is_initialized (m_hash s) && (m_tlock s && m_dlock s).
(* L1084-1113 ccp_model_const_props_locked *)
Definition mc_props_locked (s : mconst) : bool :=
  ht_is_initialized (m_hash s) && m_tlock s.
(* L1117-1146 ccp_model_const_data_locked *)
Definition mc_data_locked (s : mconst) : bool :=
  ht_is_initialized (m_hash s) && m_dlock s.
(* L1150-1180 ccp_model_const_okay_to_add *)
Definition mc_okay_to_add (s : mconst) : bool :=
  ht_is_initialized (m_hash s) && negb (mc_props_locked s || mc_data_locked s).

(* L1272-1306 ccp_model_const_find_const *)
Definition mc_find (s : mconst) (k : string) : res nat :=
  ht_value (okey (m_heap s)) (m_hash s) k.

(* L1184-1245 ccp_model_const_add_metadata *)
Definition mc_new_field (s : mconst) (id : nat) : mconst * mout :=
  if mc_okay_to_add s then
    if negb (is_instantiated (m_heap s id)) then (s, MUndef)
      (* standard_name is '' and key() then reads an unallocated string *)
    else
      match mc_find s (fst (q_standard_name (m_heap s id))) with
      | ROk c => if is_match (m_heap s c) (m_heap s id) then (s, MOk) else (s, MErr)
      | ROob => (s, MUndef)
      | RErr =>
          match ht_add (okey (m_heap s)) (m_hash s) id with
          | (ROk _, t') =>
              (mkMC (m_heap s) t' (m_tlock s) (m_dlock s)
                 (if is_layer_var (m_heap s id) then m_nlayer s + 1 else m_nlayer s)
                 (m_nadv s) (m_nlev s) (m_meta s) (m_vars s) (m_minv s), MOk)
          | (RErr, _) => (s, MErr)
          | (ROob, _) => (s, MUndef)
          end
      end
  else (s, MErr).

(* L1561-1564: deallocate every object const_metadata points to (ccpt_deallocate,
   L2487-2499) *)
Fixpoint free_all (h : nat -> cprop) (l : list (option nat)) : nat -> cprop :=
  match l with
  | [] => h
  | None :: r => free_all h r
  | Some id :: r => free_all (upd h id (prop_deallocate (h id))) r
  end.

(* L1540-1580 ccp_model_const_reset; the lock flags are not changed *)
Definition mc_reset (s : mconst) (clear : bool) : mconst :=
  let h' := match m_meta s with
            | Some l => if clear then free_all (m_heap s) l else m_heap s
            | None => m_heap s
            end in
  if clear then
    mkMC h' (ht_clear (m_hash s)) (m_tlock s) (m_dlock s) 0 0 0 None None None
  else
    mkMC h' (m_hash s) (m_tlock s) (m_dlock s) (m_nlayer s) (m_nadv s) (m_nlev s) None None None.

(* L1249-1268 ccp_model_const_initialize.  int(log(10 n)/log(2) + 1) is taken in
   exact arithmetic; for n <= 0 the logarithm is undefined. *)
Definition mc_initialize (s : mconst) (num_elements : Z) : mconst * mout :=
  if num_elements <=? 0 then (s, MUndef)
  else
    let s1 := mc_reset s true in
    let tbl_size := Z.log2 (num_elements * 10) + 1 in
    (mkMC (m_heap s1) (ht_initialize (m_hash s1) tbl_size None) false (m_dlock s1)
       (m_nlayer s1) (m_nadv s1) (m_nlev s1) (m_meta s1) (m_vars s1) (m_minv s1), MOk).

(* The entries an iterator over the table yields (hiter%initialize, valid, value,
   next); None = out-of-bounds access or no termination. *)
Definition tbl_entries (t : htable nat) : option (list (option nat)) :=
  match iter_initialize t with
  | None => None
  | Some it => iter_collect (S (Z.to_nat (ht_keys t))) t it
  end.

(* L1345-1360: count the advected constituents *)
Fixpoint count_advected (h : nat -> cprop) (l : list (option nat)) (n : Z) : Z :=
  match l with
  | [] => n
  | Some id :: r => count_advected h r (if fst (q_is_advected (h id)) then n + 1 else n)
  | None :: r => count_advected h r n
  end.

(* State of the second loop of table_lock, L1373-1428 *)
Record lockst := mkLS {
  l_heap : nat -> cprop; l_meta : list (option nat);
  l_adv : Z; l_const : Z; l_err : Z; l_errloc : Z }.

(* const_metadata(i)%set(cprop), L2455-2483, 1-based.  The array is freshly
   allocated, so the pointer is never set before. *)
Definition meta_set (m : list (option nat)) (i : Z) (id : nat) : list (option nat) :=
  list_set m (Z.to_nat (i - 1)) (Some id).

(* L1379-1419: one constituent; the boolean says "exit the loop" *)
Definition lock_one (nadv nvars : Z) (st : lockst) (id : nat) : lockst * bool :=
  let h := l_heap st in
  let adv := fst (q_is_advected (h id)) in
  let ia := if adv then l_adv st + 1 else l_adv st in
  let ic := if adv then l_const st else l_const st + 1 in
  if (if adv then nadv <? ia else nvars <? ic) then
    (mkLS h (l_meta st) ia ic (l_err st + 1) (l_errloc st + 1), true)
  else
    let i := if adv then ia else ic in
    let '(p', e) := set_const_index (h id) i in
    let h' := upd h id p' in
    let meta' := meta_set (l_meta st) i id in
    if is_layer_var (h' id) then
      (mkLS h' meta' ia ic e (l_errloc st), false)
    else
      (* vertical_dimension resets errcode, append_errvars adds 1 *)
      (mkLS h' meta' ia ic (snd (q_vertical_dimension (h' id)) + 1) (l_errloc st + 1), true).

Fixpoint lock_loop (nadv nvars : Z) (st : lockst) (l : list (option nat)) : lockst :=
  match l with
  | [] => st
  | Some id :: r =>
      let '(st', stop) := lock_one nadv nvars st id in
      if stop then st' else lock_loop nadv nvars st' r
  | None :: r =>
      (* class default: bad hash table value, exit *)
      mkLS (l_heap st) (l_meta st) (l_adv st) (l_const st) (l_err st + 1) (l_errloc st + 1)
  end.

(* L1310-1460 ccp_model_const_table_lock *)
Definition mc_lock_table (s : mconst) : mconst * mout :=
  if mc_props_locked s then (s, MErr)
  else
    let s1 := mc_reset s false in
    let nvars := ht_num_values (m_hash s1) in
    match tbl_entries (m_hash s1) with
    | None => (s1, MUndef)
    | Some ents =>
        let nadv := count_advected (m_heap s1) ents 0 in
        let meta0 := repeat None (Z.to_nat nvars) in
        if nvars <? nadv then
          (mkMC (m_heap s1) (m_hash s1) (m_tlock s1) (m_dlock s1) (m_nlayer s1) nadv (m_nlev s1)
             (Some meta0) (m_vars s1) (m_minv s1), MErr)
        else
          let st := lock_loop nadv nvars (mkLS (m_heap s1) meta0 0 nadv 0 0) ents in
          let err1 := l_err st + (if l_const st =? nvars then 0 else 1)
                               + (if l_adv st =? nadv then 0 else 1) in
          let loc1 := l_errloc st + (if l_const st =? nvars then 0 else 1)
                                  + (if l_adv st =? nadv then 0 else 1) in
          let loc2 := if err1 =? 0 then loc1 else 1 in
          let ok := loc2 =? 0 in
          (mkMC (l_heap st) (m_hash s1) (if ok then true else m_tlock s1) (m_dlock s1)
             (m_nlayer s1) nadv (m_nlev s1) (Some (l_meta st)) (m_vars s1) (m_minv s1),
           if err1 =? 0 then MOk else MErr)
    end.

Definition fill (ncols nlev : Z) (x : Z) : slab :=
  repeat (repeat x (Z.to_nat nlev)) (Z.to_nat ncols).

(* const_metadata(index)%default_value / %minimum (L2411-2429, L2321-2339) *)
Definition meta_default (h : nat -> cprop) (e : option nat) : Z * Z :=
  match e with Some id => q_default_value (h id) | None => (kphys_unassigned, 1) end.
Definition meta_min (h : nat -> cprop) (e : option nat) : Z * Z :=
  match e with Some id => q_minimum (h id) | None => (kphys_unassigned, 1) end.

(* L1464-1536 ccp_model_const_data_lock.  Only vars_layer's allocation status is
   tested (the three arrays are always allocated together).  The loop's errcode
   is that of the last constituent's minimum query. *)
Definition mc_lock_data (s : mconst) (ncols nlev : Z) : mconst * mout :=
  if mc_data_locked s then (s, MErr)
  else if negb (mc_props_locked s) then (s, MErr)
  else
    match m_vars s, m_meta s with
    | Some _, _ => (s, MErr)                   (* allocate: stat /= 0 *)
    | None, None => (s, MUndef)
    | None, Some meta =>
        let last := last (map (fun e => snd (meta_min (m_heap s) e)) meta) 0 in
        (mkMC (m_heap s) (m_hash s) (m_tlock s) (last =? 0)
           (m_nlayer s) (m_nadv s) nlev (m_meta s)
           (Some (map (fun e => fill ncols nlev (fst (meta_default (m_heap s) e))) meta))
           (Some (map (fun e => fst (meta_min (m_heap s) e)) meta)),
         if last =? 0 then MOk else MErr)
    end.

(* L1662-1687 ccp_model_const_index *)
Definition mc_const_index (s : mconst) (k : string) : Z :=
  if mc_props_locked s then
    match mc_find s k with
    | ROk id => fst (q_const_index (m_heap s id))
    | _ => int_unassigned
    end
  else int_unassigned.

(* an attribute pattern: present optional arguments of is_match *)
Record filter := mkFilter { f_adv : option bool; f_thermo : option bool; f_water : option bool }.

Definition opt_match (want : option bool) (have : bool) : bool :=
  match want with None => true | Some b => Bool.eqb b have end.

(* L1584-1625 ccp_model_const_is_match on const_metadata(index); the queries of
   an unassociated pointer return .false. (L2130-2190) *)
Definition meta_match (h : nat -> cprop) (e : option nat) (f : filter) : bool :=
  match e with
  | Some id =>
      opt_match (f_adv f) (fst (q_is_advected (h id))) &&
      opt_match (f_thermo f) (fst (q_is_thermo_active (h id))) &&
      opt_match (f_water f) (fst (q_is_water_species (h id)))
  | None => opt_match (f_adv f) false && opt_match (f_thermo f) false && opt_match (f_water f) false
  end.

(* L1629-1658 ccp_model_const_num_match *)
Definition mc_num_match (s : mconst) (f : filter) : Z :=
  if mc_props_locked s then
    match m_meta s with
    | Some l => fold_left (fun n e => if meta_match (m_heap s) e f then n + 1 else n) l 0
    | None => 0
    end
  else 0.

Definition meta_index (h : nat -> cprop) (e : option nat) : Z :=
  match e with Some id => fst (q_const_index (h id)) | None => int_unassigned end.
Definition meta_layer (h : nat -> cprop) (e : option nat) : bool :=
  match e with Some id => is_layer_var (h id) | None => false end.

(* L1748-1789: the copy_in loop from const_metadata(index) on; cindex constituents
   already copied to const_array *)
Fixpoint copy_in_loop (h : nat -> cprop) (meta : list (option nat)) (index : Z)
    (f : filter) (vars : list slab) (levels_ok : bool) (arr : list slab) (cindex : nat)
  : list slab * mout :=
  match meta with
  | [] => (arr, MOk)
  | e :: r =>
      if meta_match h e f then
        if (length arr <? S cindex)%nat then (arr, MErr)
        else if negb (meta_index h e =? index) then (arr, MErr)
        else if meta_layer h e then
          if levels_ok then
            match nth_error vars (Z.to_nat (index - 1)) with
            | Some v => copy_in_loop h r (index + 1) f vars levels_ok (list_set arr cindex v) (S cindex)
            | None => (arr, MUndef)
            end
          else (arr, MErr)
        else (arr, MErr)
      else copy_in_loop h r (index + 1) f vars levels_ok arr cindex
  end.

(* L1717-1791 ccp_model_const_copy_in_3d.  num_levels is SIZE(const_array,2).
   The dummy is intent(out); elements not assigned are modelled as unchanged. *)
Definition mc_copy_in (s : mconst) (arr : list slab) (num_levels : Z) (f : filter)
  : list slab * mout :=
  if mc_locked s then
    match m_meta s, m_vars s with
    | Some meta, Some vars =>
        copy_in_loop (m_heap s) meta 1 f vars (m_nlev s =? num_levels) arr 0
    | _, _ => (arr, MUndef)
    end
  else (arr, if ht_is_initialized (m_hash s) then MOk else MErr).

(* L1826-1867: the copy_out loop *)
Fixpoint copy_out_loop (h : nat -> cprop) (meta : list (option nat)) (index : Z)
    (f : filter) (vars : list slab) (levels_ok : bool) (arr : list slab) (cindex : nat)
  : list slab * mout :=
  match meta with
  | [] => (vars, MOk)
  | e :: r =>
      if meta_match h e f then
        match nth_error arr cindex with
        | None => (vars, MErr)                        (* cindex > max_cind *)
        | Some a =>
            if negb (meta_index h e =? index) then (vars, MErr)
            else if meta_layer h e then
              if levels_ok then
                copy_out_loop h r (index + 1) f (list_set vars (Z.to_nat (index - 1)) a)
                              levels_ok arr (S cindex)
              else (vars, MErr)
            else (vars, MErr)
        end
      else copy_out_loop h r (index + 1) f vars levels_ok arr cindex
  end.

(* L1795-1869 ccp_model_const_copy_out_3d *)
Definition mc_copy_out (s : mconst) (arr : list slab) (num_levels : Z) (f : filter)
  : mconst * mout :=
  if mc_locked s then
    match m_meta s, m_vars s with
    | Some meta, Some vars =>
        let '(vars', o) := copy_out_loop (m_heap s) meta 1 f vars (m_nlev s =? num_levels) arr 0 in
        (mkMC (m_heap s) (m_hash s) (m_tlock s) (m_dlock s) (m_nlayer s) (m_nadv s) (m_nlev s)
           (m_meta s) (Some vars') (m_minv s), o)
    | _, _ => (s, MUndef)
    end
  else (s, if ht_is_initialized (m_hash s) then MOk else MErr).

(* L1873-1892 ccp_field_data_ptr and L1896-1915 ccp_advected_data_ptr *)
Definition mc_field_data (s : mconst) : option (list slab) :=
  if mc_locked s then m_vars s else None.
Definition mc_advected_data (s : mconst) : option (list slab) :=
  if mc_locked s then
    match m_vars s with Some v => Some (firstn (Z.to_nat (m_nadv s)) v) | None => None end
  else None.

(* ---- call histories ---- *)
Inductive mop :=
| MInit (num_elements : Z) | MNew (id : nat) | MLock | MLockData (ncols nlev : Z) | MReset.

Definition mstep (s : mconst) (o : mop) : mconst * mout :=
  match o with
  | MInit n => mc_initialize s n
  | MNew id => mc_new_field s id
  | MLock => mc_lock_table s
  | MLockData c l => mc_lock_data s c l
  | MReset => (mc_reset s true, MOk)
  end.

(* A history stops at the first undefined behaviour. *)
Fixpoint mrun (s : mconst) (ops : list mop) : mconst * list mout :=
  match ops with
  | [] => (s, [])
  | o :: r => match mstep s o with
              | (s', MUndef) => (s', [MUndef])
              | (s', out) => let '(s2, outs) := mrun s' r in (s2, out :: outs)
              end
  end.
