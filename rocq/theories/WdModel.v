(* WdModel.v: scripts/metavar.py, Var.write_def (L1032-1142), Var.write_ptr_def
   (L1144-1159) and VarDictionary.declare_variables (L1894-1905); scripts/ddt_library.py,
   VarDDT.write_def (L115-135); scripts/suite_objects.py, the pointers of a group
   (L2410-2448).  Modelled is the text passed to outfile.write, which breaks it into lines
   (FWModel.v); an exception is its class. *)
From Verif Require Import PyStr Regex CheckModel DictModel HdrModel CsModel.
Open Scope nat_scope.
Open Scope list_scope.

(* the properties write_def reads; w_var has the standard name, local name and dimensions;
   w_ddt is is_ddt() (for a structure, kind is the name of the type, L302-305); an absent
   kind is the empty text *)
Record wvar := mkW {
  w_var : var; w_ddt : bool; w_type : str; w_kind : str; w_intent : option str;
  w_protected : bool; w_polymorphic : bool; w_optional : bool; w_allocatable : bool; w_target : bool }.

(* ' '*n; nothing if n is negative *)
Definition spaces (n : Z) : str := List.repeat " "%char (Z.to_nat n).
Definition len (s : str) : Z := Z.of_nat (length s).
(* L1049-1053 *)
Definition base_name (v : var) : str := match ref_parts (v_local v) with Some (n, _) => n | None => v_local v end.
(* '(:' + ',:'*(len(dims) - 1) + ')', L1057 and L2420, L2444 *)
Definition colons (dims : list str) : str := L "(:" ++ List.concat (List.repeat (L ",:") (length dims - 1)) ++ L ")".
(* intent.lower()[-3:] == 'out' *)
Definition ends_out (i : str) : bool := str_eqb (rev (firstn 3 (rev (lower i)))) (L "out").
(* L1084-1111 *)
Definition intent_str (w : wvar) (allocatable target dummy : bool) (intent : option str) (dimstr : str) : str :=
  if w_protected w && dummy then L "intent(in)   "
  else if allocatable then
    if negb (str_eqb dimstr []) || w_polymorphic w then
      if target then L "allocatable," ++ L "  target" else L "allocatable         "
    else spaces 13
  else match intent with
       | Some i =>
           if ends_out i && w_allocatable w then L "allocatable, intent(" ++ i ++ L ")" ++ spaces (5 - len i)
           else if w_optional w then (L "intent(" ++ i ++ L ")," ++ spaces (5 - len i)) ++ L "target, optional "
           else L "intent(" ++ i ++ L ")" ++ spaces (5 - len i)
       | None => if negb dummy then spaces 20 else spaces 13
       end.
(* L1112-1142 *)
Definition definition (w : wvar) (extra : Z) (ist name dimstr : str) : str :=
  let comma := if str_eqb (strip ist) [] then L " " else L "," in
  let targ := if w_target w then L ", target" else [] in
  let comma := targ ++ comma in
  let extra := (extra - len targ)%Z in
  let k := w_kind w in
  if w_ddt w then
    if w_polymorphic w then L "class(" ++ k ++ L ")" ++ (comma ++ spaces (extra + 12 - len k)) ++ ist ++ L " :: " ++ name ++ dimstr
    else L "type(" ++ k ++ L ")" ++ (comma ++ spaces (extra + 13 - len k)) ++ ist ++ L " :: " ++ name ++ dimstr
  else if negb (str_eqb k []) then
    w_type w ++ L "(" ++ k ++ L ")" ++ (comma ++ spaces (extra + 17 - len (w_type w) - len k)) ++ ist ++ L " :: " ++ name ++ dimstr
  else w_type w ++ (comma ++ spaces (extra + 19 - len (w_type w))) ++ ist ++ L " :: " ++ name ++ dimstr.
(* write_def; None: nothing is written *)
Definition write_def (fuel : nat) (w : wvar) (d : dict) (allocatable target dummy : bool) (add_intent : option str) (extra : Z) : res (option str) :=
  if str_eqb (v_std (w_var w)) const_one then Ok None
  else
    let name := base_name (w_var w) in
    let dims := v_dims (w_var w) in
    dimstr <- (match dims with
               | [] => Ok []
               | _ => if allocatable || dummy then Ok (colons dims) else call_dimstring fuel (w_var w) (Some [d]) false false
               end) ;;
    let intent := if dummy then w_intent w else None in
    if w_protected w && allocatable then Raise "CCPPError"
    else
      intent <- (match dummy, intent, add_intent with
                 | true, None, Some i => Ok (Some i)
                 | true, None, None => Raise "CCPPError"
                 | _, i, _ => Ok i
                 end) ;;
      Ok (Some (definition w extra (intent_str w allocatable target dummy intent dimstr) name dimstr)).

(* a Var or a VarDDT (ddt_library.py L24-51) and VarDDT.write_def, L115-135 *)
Inductive wobj := WV (w : wvar) | WD (root : wvar) (fld : wobj).
Fixpoint write_obj (fuel : nat) (o : wobj) (d : dict) (allocatable target dummy : bool) (add_intent : option str) (extra : Z) : res (option str) :=
  match o with
  | WV w => write_def fuel w d allocatable target dummy add_intent extra
  | WD _ fld => write_obj fuel fld d allocatable target dummy add_intent extra
  end.

(* declare_variables with its default choice of all variables, which includes every one
   (include_var_in_list, L1576-1590); the texts written *)
Fixpoint declare_variables (fuel : nat) (vars : list wobj) (d : dict) (dummy : bool) : res (list str) :=
  match vars with
  | [] => Ok []
  | o :: r =>
      t <- write_obj fuel o d false false dummy None 0 ;;
      l <- declare_variables fuel r d dummy ;;
      Ok (match t with Some x => x :: l | None => l end)
  end.

(* write_ptr_def *)
Definition write_ptr_def (name kind dimstr vtype : str) (extra : Z) : str :=
  let comma := L ", " in
  let pad := spaces (20 - len name - len dimstr) in
  if negb (str_eqb kind []) then
    vtype ++ L "(" ++ kind ++ L ")" ++ (comma ++ spaces (extra + 20 - len vtype - len kind)) ++ L "pointer          :: " ++ name ++ dimstr ++ pad ++ L " => null()"
  else vtype ++ (comma ++ spaces (extra + 22 - len vtype)) ++ L "pointer          :: " ++ name ++ dimstr ++ pad ++ L " => null()".
(* the pointer of a variable, suite_objects.py L2410-2448, and its
   declaration, L2530-2531 *)
Definition pointer_def (w : wvar) : str :=
  let dims := v_dims (w_var w) in
  write_ptr_def (v_local (w_var w) ++ L "_ptr") (w_kind w) (match dims with [] => [] | _ => colons dims end)
                (if w_ddt w then L "type" else w_type w) 0.
