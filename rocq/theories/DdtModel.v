(* DdtModel.v: scripts/ddt_library.py, class VarDDT (__init__ L24-51, call_string
   L112-121) and DDTLibrary.collect_ddt_fields (L254-303), with the parts of
   VarDictionary it uses (metavar.py, find_variable L1769-1820, add_variable L1612-1711,
   find_local_name L1821-1839).
   Simplified: a component is its local and standard name, its type and whether that is a
   derived type; only collect_ddt_fields adds to the dictionary, so that its map of local
   names holds exactly the lower-case local names of its variables; an exception is its
   class.  Local names are taken without array references. *)
From Verif Require Import PyStr DictModel ReqModel.
Open Scope nat_scope.
Open Scope list_scope.

Record field := mkF { f_local : str; f_std : str; f_type : str; f_ddt : bool }.
(* the DDT definitions, by type name *)
Definition library := list (str * list field).
(* a Var, or a VarDDT: its own properties (the root) and its field *)
Inductive obj := OVar (f : field) | ODdt (root : field) (fld : obj).

(* the Var part of a VarDDT is a copy of the property dictionary of var_ref
   (Var.__init__, metavar.py L280, copy_prop_dict L457): its own, not its field's *)
Definition own (o : obj) : field := match o with OVar f => f | ODdt r _ => r end.
(* isinstance(var_ref, Var): VarDDT is a subclass of Var *)
Definition is_var (o : obj) : bool := match o with OVar _ => true | ODdt _ _ => true end.
(* VarDDT.__init__, L24-51 *)
Fixpoint var_ddt (new_field : field) (ref : obj) : obj :=
  ODdt (own ref)
       (if is_var ref then OVar new_field
        else match ref with ODdt _ fld => var_ddt new_field fld | OVar f => OVar new_field end).
(* get_prop_value, L64-72: of the leaf *)
Fixpoint leaf (o : obj) : field := match o with OVar f => f | ODdt _ fld => leaf fld end.
(* call_string, L112-121 *)
Fixpoint call_string (o : obj) : str :=
  match o with OVar f => f_local f | ODdt r fld => f_local r ++ L "%" ++ call_string fld end.

(* the dictionary, and the standard names its parents know *)
Definition ddict := list (str * obj).
Definition knows (parents : list str) (d : ddict) (s : str) : bool :=
  str_eqb s const_one || mem s (map fst d) || mem s parents.
Definition has_local (d : ddict) (l : str) : bool := mem (lower l) (map (fun e => lower (f_local (leaf (snd e)))) d).
(* add_variable of a variable whose standard name is not known *)
Definition add_new (d : ddict) (o : obj) : res ddict :=
  if has_local d (f_local (leaf o)) then Raise "ParseSyntaxError" else Ok (d ++ [(f_std (leaf o), o)]).

(* collect_ddt_fields, L273-303; [fuel] bounds the recursion *)
Fixpoint collect (fuel : nat) (lib : library) (parents : list str) (d : ddict) (v : obj) (fields : list field) (skip : bool) : res ddict :=
  match fuel with
  | 0 => Raise "RecursionError"
  | S fuel =>
      fold_left
        (fun acc f =>
           d0 <- acc ;;
           let sub := var_ddt f v in
           d1 <- (match (if f_ddt f then get (f_type f) lib else None) with
                  | Some fs => collect fuel lib parents d0 sub fs false
                  | None => Ok d0
                  end) ;;
           if knows parents d1 (f_std f) then if skip then Ok d1 else Raise "CCPPError"
           else add_new d1 sub)
        fields (Ok d)
  end.
(* L263-272: ddt=None *)
Definition collect_var (fuel : nat) (lib : library) (parents : list str) (d : ddict) (v : field) (skip : bool) : res ddict :=
  match get (f_type v) lib with
  | Some fs => collect fuel lib parents d (OVar v) fs skip
  | None => Raise "ParseInternalError"
  end.
