(* DictModel.v: model of VarDictionary, scripts/metavar.py L1495-2105: add_variable,
   remove_variable, find_variable, find_local_name, new_internal_variable_name, and
   of Var.adjust_intent (L409-440).
   Simplified: a variable is its standard name, local name, intent and protected
   property; the compatibility check (Var.compatible, modelled in CompatModel) is
   the parameter [compat]; messages and logging are dropped. *)
From Verif Require Import PyStr PyNum CompatModel ReqModel.
Open Scope nat_scope.
Open Scope list_scope.

Record var := mkV { x_std : str; x_local : str; x_intent : option intent; x_prot : bool }.
Definition intent_eqb (a b : option intent) : bool :=
  match a, b with
  | None, None => true
  | Some In_, Some In_ => true | Some InOut_, Some InOut_ => true | Some Out_, Some Out_ => true
  | _, _ => false
  end.
Definition set_intent (v : var) (i : intent) : var := mkV (x_std v) (x_local v) (Some i) (x_prot v).
Definition set_local (v : var) (l : str) : var := mkV (x_std v) l (x_intent v) (x_prot v).

(* Var.adjust_intent, L409-440: the new state of [v] *)
Definition adjust_intent (v src : var) : res var :=
  let sv := match x_intent src with Some i => i | None => In_ end in
  if match sv with In_ => false | _ => true end && x_prot v then Raise "CCPPError: protected"
  else match x_intent v with
       | Some _ => Ok (if intent_eqb (x_intent v) (Some sv) then v else set_intent v InOut_)
       | None => Ok (set_intent v sv)
       end.

(* the dictionary: OrderedDict contents and __local_names (L1550) *)
Record dict := mkD { d_vars : list (str * var); d_locals : list (str * str) }.
Definition d_empty : dict := mkD [] [].
Fixpoint get {A} (k : str) (l : list (str * A)) : option A :=
  match l with [] => None | (k', v) :: t => if str_eqb k k' then Some v else get k t end.
Fixpoint set {A} (k : str) (v : A) (l : list (str * A)) : list (str * A) :=
  match l with
  | [] => [(k, v)]
  | (k', v') :: t => if str_eqb k k' then (k', v) :: t else (k', v') :: set k v t
  end.
Fixpoint del {A} (k : str) (l : list (str * A)) : list (str * A) :=
  match l with [] => [] | (k', v') :: t => if str_eqb k k' then t else (k', v') :: del k t end.

(* CCPP_CONSTANT_VARS, L2108-2112 and L36-41 *)
Definition const_one : str := L "ccpp_constant_one".
Definition const_var : var := mkV const_one (L "1") None true.

(* find_variable, L1769-1820, with any_scope=False, clone=None *)
Definition find_variable (d : dict) (s : str) : option var :=
  if str_eqb s const_one then Some const_var else get s (d_vars d).
(* the same with any_scope=True: the dictionary and its chain of parents *)
Fixpoint find_any (ds : list dict) (s : str) : option var :=
  match ds with
  | [] => None
  | d :: parents =>
      if str_eqb s const_one then Some const_var
      else match get s (d_vars d) with Some v => Some v | None => find_any parents s end
  end.

(* find_local_name, L1822-1840, with any_scope=False *)
Definition find_local_name (d : dict) (l : str) : res (option var) :=
  match get (lower l) (d_locals d) with
  | Some s => match find_variable d s with
              | Some v => Ok (Some v)
              | None => Raise "ParseInternalError: should have standard_name"
              end
  | None => Ok None
  end.

(* new_internal_variable_name, L2082-2105, with a prefix.  [fuel] bounds the while
   loop; None: fuel exhausted. *)
Fixpoint new_name_loop (fuel : nat) (taken : list str) (max_len : nat) (prefix : str) (index : nat) : option str :=
  match fuel with
  | 0 => None
  | S fuel =>
      let n := if index =? 0 then prefix else prefix ++ str_of_nat index in
      if max_len <? length n then new_name_loop fuel taken max_len (removelast prefix) (S index)
      else if mem n taken then new_name_loop fuel taken max_len prefix (S index)
      else Some n
  end.
Definition containing (prefix : str) (l : list str) : list str := List.filter (contains prefix) l.
Definition new_name (fuel : nat) (d : dict) (max_len : nat) (prefix : str) : option str :=
  new_name_loop fuel (containing prefix (map fst (d_locals d))) max_len prefix 0.

(* Var.array_ref (L772-780): the array name of a local name that is an array
   reference.  Simplified: the text before the first parenthesis, when there is one *)
Definition array_of (l : str) : option str :=
  if contains (L "(") l then Some (strip (takewhile (fun c => negb (Ascii.eqb c "(")) l)) else None.

Definition fuel_of (d : dict) (l : str) : nat := S (length l) * S (length (d_locals d)) + length l.
Definition max_len : nat := 63.

(* add_variable, L1621-1720.  The dictionary is returned also on failure, since
   adjust_intent changes the variable in place.
   First part (L1646-1690): compatibility with a variable found under the same
   standard name, and intent adjustment *)
Definition check_existing (compat : var -> var -> bool) (d : dict) (v : var) (adjust : bool) : dict * res unit :=
  match find_variable d (x_std v) with
  | None => (d, Ok tt)
  | Some c =>
      if compat c v then
        if intent_eqb (x_intent c) (x_intent v) then (d, Ok tt)
        else if adjust then
          if match x_intent c, x_intent v with
             | Some In_, Some InOut_ | Some In_, Some Out_ => true
             | Some Out_, Some InOut_ | Some Out_, Some In_ => true
             | _, _ => false
             end
          then match adjust_intent c v with
               | Ok c' => (mkD (set (x_std v) c' (d_vars d)) (d_locals d), Ok tt)
               | Raise e => (d, Raise e)
               end
          else (d, Ok tt)
        else (d, Raise "CCPPError: intent mismatch")
      else (d, Raise "ParseSyntaxError: incompatible")
  end.
(* second part (L1691-1710): the variable to add, perhaps under a new local name *)
Definition resolve_local (d : dict) (v : var) (exists_ok gen_unique : bool) : res var :=
  lvar <- find_local_name d (x_local v) ;;
  v' <- match lvar with
        | Some _ =>
            if gen_unique then
              match new_name (fuel_of d (x_local v)) d max_len (x_local v) with
              | Some n => Ok (set_local v n)
              | None => Raise "no termination"
              end
            else if exists_ok then Ok v else Raise "ParseSyntaxError: local name already registered"
        | None => Ok v
        end ;;
  _ <- match array_of (x_local v) with Some a => find_local_name d a | None => Ok None end ;;
  Ok v'.
Definition add_variable (compat : var -> var -> bool) (d : dict) (v : var) (exists_ok gen_unique adjust : bool) : dict * res unit :=
  let s := x_std v in
  let present := match get s (d_vars d) with Some _ => true | None => false end in
  if present && negb exists_ok then (d, Raise "ParseSyntaxError: duplicate standard name")
  else
    match check_existing compat d v adjust with
    | (d1, Raise e) => (d1, Raise e)
    | (d1, Ok _) =>
        match resolve_local d1 v exists_ok gen_unique with
        | Raise e => (d1, Raise e)
        | Ok v' =>
            (mkD (match get s (d_vars d1) with Some _ => d_vars d1 | None => d_vars d1 ++ [(s, v')] end)
                 (match get (lower (x_local v)) (d_locals d1) with Some _ => d_locals d1
                  | None => d_locals d1 ++ [(lower (x_local v), s)] end), Ok tt)
        end
    end.

(* remove_variable, L1722-1728: the local name stays registered *)
Definition remove_variable (d : dict) (s : str) : dict := mkD (del s (d_vars d)) (d_locals d).

(* histories *)
Inductive op := Add (v : var) (exists_ok gen_unique adjust : bool) | Remove (s : str).
Definition step (compat : var -> var -> bool) (d : dict) (o : op) : dict :=
  match o with
  | Add v e g a => fst (add_variable compat d v e g a)
  | Remove s => remove_variable d s
  end.
Definition run (compat : var -> var -> bool) (ops : list op) : dict := fold_left (step compat) ops d_empty.
