(* What a declaration of a dummy argument says, which imports a cap needs, and how
   its local variables are declared. *)
From Coq Require Import List Ascii String ZArith Bool Lia.
From Verif Require Import PyStr PyNum ParModel ArModel.
Import ListNotations.
Open Scope nat_scope. Open Scope list_scope.

Definition intrinsic (t : str) : Prop := In t [L "character"; L "integer"; L "logical"; L "real"].
(* a type, a kind, and how they are written *)
Inductive type_spec : str -> str -> str -> Prop :=
| ts_plain t : intrinsic t -> type_spec t [] t
| ts_kind t k : intrinsic t -> k <> [] -> type_spec t k (t ++ L "(" ++ k ++ L ")")
| ts_derived t : ~ intrinsic t -> type_spec t [] (L "type(" ++ t ++ L ")").
(* a bound of the metadata and what is written for it: a number stays, a standard
   name (in any case) becomes the local name the host gives it *)
Inductive bound (defs : pdefs) : str -> str -> Prop :=
| bound_number b z : py_int b = Some z -> bound defs b b
| bound_standard b v : py_int b = None -> assoc defs (lower b) = Some v -> bound defs b (pv_local v).
(* a dimension of the metadata and its two bounds: n is 1:n *)
Inductive extent (defs : pdefs) : str -> str -> str -> Prop :=
| extent_upper d hi : ~ In ":"%char d -> bound defs d hi -> extent defs d (L "1") hi
| extent_both x y z lo hi : ~ In ":"%char x -> ~ In ":"%char y -> (z = [] \/ exists w, z = ":"%char :: w) ->
    bound defs (lower x) lo -> bound defs (lower y) hi ->
    extent defs (x ++ ":"%char :: y ++ z) lo hi.
(* the shape: one lower bound and a colon for each dimension *)
Inductive assumed_shape (defs : pdefs) : list str -> str -> Prop :=
| shape_scalar : assumed_shape defs [] []
| shape_array dims los : dims <> [] -> Forall2 (fun d lo => exists hi, extent defs d lo hi) dims los ->
    assumed_shape defs dims (L "(" ++ join (L ",") (map (fun lo => lo ++ L ":") los) ++ L ")").
(* the declaration of a dummy argument; it may be absent iff the host variable is
   not always allocated *)
Inductive declares (defs : pdefs) (v : pvar) : str -> Prop :=
| declares_always ty sh : pv_active v = L "T" -> type_spec (pv_type v) (pv_kind v) ty -> assumed_shape defs (pv_dims v) sh ->
    declares defs v (ty ++ L ", intent(" ++ pv_intent v ++ L "), target :: " ++ pv_local v ++ sh)
| declares_sometimes ty sh : pv_active v <> L "T" -> type_spec (pv_type v) (pv_kind v) ty -> assumed_shape defs (pv_dims v) sh ->
    declares defs v (ty ++ L ", intent(" ++ pv_intent v ++ L "), optional, target :: " ++ pv_local v ++ sh).
(* what a variable needs from a module: its kind, or its derived type *)
Inductive requires (v : pvar) : str -> Prop :=
| requires_kind : intrinsic (pv_type v) -> pv_type v <> L "character" -> pv_kind v <> [] -> requires v (pv_kind v)
| requires_type : ~ intrinsic (pv_type v) -> requires v (pv_type v).
(* an import of a variable or type of the host from the module of its container *)
Inductive imports (v : pvar) : str -> Prop :=
| imports_from m : In (L "MODULE_" ++ m) (split_on " "%char (pv_container v)) ->
    imports v (L "use " ++ m ++ L ", only: " ++ pv_local v).

(* a local pointer and its type: the type is defined before it is used, and once *)
Inductive local_texts : list str -> list (bool * pvar) -> list str -> Prop :=
| lt_nil ts : local_texts ts [] []
| lt_var ts v ty r ds : type_spec (pv_type v) (pv_kind v) ty -> local_texts ts r ds ->
    local_texts ts ((false, v) :: r)
      ((ty ++ (match pv_dims v with [] => [] | ds => L ", dimension(" ++ join (L ",") (map (fun _ => L ":") ds) ++ L "), allocatable" end) ++
        L ", target :: " ++ pv_local v) :: ds)
| lt_known ts v n r ds : In n ts -> n = pointer_type v -> local_texts ts r ds ->
    local_texts ts ((true, v) :: r) ((L "type(" ++ n ++ L "), dimension(1:cdata%thrd_cnt) :: " ++ pv_local v ++ L "_array") :: ds)
| lt_new ts v n ty r ds : ~ In n ts -> n = pointer_type v -> type_spec (pv_type v) (pv_kind v) ty -> local_texts (ts ++ [n]) r ds ->
    local_texts ts ((true, v) :: r)
      ((L "type :: " ++ n ++ [nl] ++ L "         " ++
        (ty ++ (match pv_dims v with [] => [] | ds => L ", dimension(" ++ join (L ",") (map (fun _ => L ":") ds) ++ L ")" end) ++ L ", pointer :: p => null()") ++
        [nl] ++ L "      end type " ++ n) ::
       (L "type(" ++ n ++ L "), dimension(1:cdata%thrd_cnt) :: " ++ pv_local v ++ L "_array") :: ds).
