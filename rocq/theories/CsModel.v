(* CsModel.v: scripts/metavar.py, Var.handle_array_ref (L533-592), Var.call_dimstring
   (L594-674), Var.call_string (L676-749), VarDictionary.find_loop_dim_match (L1973-1995)
   and var_call_string (L2068-2074); scripts/ddt_library.py, VarDDT.call_string (L104-113).
   Simplified: a variable is its standard and local name and its list of dimensions; a
   dictionary is searched without its parents (any_scope=False, the only way these
   functions search); an exception is its class, so that the text of the message
   call_dimstring collects is left out and only whether it is empty is kept. *)
From Verif Require Import PyStr Regex CheckModel DictModel HdrModel.
Open Scope nat_scope.
Open Scope list_scope.

Record var := mkV { v_std : str; v_local : str; v_dims : list str }.
(* a Var, or a VarDDT: its own properties and its field (ddt_library.py L24-51) *)
Inductive obj := OV (v : var) | OD (root : var) (fld : obj).
Definition dict := list (str * obj).
Fixpoint leaf (o : obj) : var := match o with OV v => v | OD _ fld => leaf fld end.
(* the names before the last one; VarDDT.call_string, ddt_library.py L104-113, which puts
   the text of the field after the name of the root and a percent sign *)
Fixpoint prefix (o : obj) : str := match o with OV _ => [] | OD r fld => v_local r ++ L "%" ++ prefix fld end.

(* CCPP_CONSTANT_VARS, metavar.py L2106-2111 and L36-39 *)
Definition one_var : obj := OV (mkV const_one (L "1") []).
(* find_variable(standard_name, any_scope=False), L1769-1820 *)
Definition find (d : dict) (s : str) : option obj := if str_eqb s const_one then Some one_var else get s d.

(* array_ref, L772-780: the match and its groups 1 and 2, the latter split and stripped *)
Definition ref_parts (s : str) : option (str * list str) :=
  if re_dollar scalar_ref_re s then
    match ref_tokens s with n :: l => Some (n, l) | [] => None end
  else None.
Definition colon : str := L ":".
(* the loop of L572-582 *)
Fixpoint fill (dims sdims : list str) : res (list str) :=
  match dims with
  | [] => Ok []
  | x :: r =>
      if str_eqb x colon then
        match sdims with
        | [] => Raise "CCPPError"
        | y :: s => l <- fill r s ;; Ok (y :: l)
        end
      else l <- fill r sdims ;; Ok (x :: l)
  end.
(* handle_array_ref; the test of L583-587 cannot succeed after the loop and is left out *)
Definition handle (v : var) : res (str * list str) :=
  match ref_parts (v_local v) with
  | Some (n, l) =>
      if length (List.filter (str_eqb colon) l) <? length (v_dims v) then Raise "CCPPError"
      else f <- fill l (v_dims v) ;; Ok (n, f)
  | None => Ok (v_local v, v_dims v)
  end.
(* L684-694: s.find('('), the text after it without its last character *)
Definition plain (s : str) : str * list str :=
  match s with
  | c :: _ =>
      if Ascii.eqb c "(" then (s, [])
      else if existsb (Ascii.eqb "(") s then
        (strip (takewhile (fun c => negb (Ascii.eqb c "(")) s),
         map strip (split_on "," (removelast (rstrip (tl (dropwhile (fun c => negb (Ascii.eqb c "(")) s))))))
      else (s, [])
  | [] => (s, [])
  end.

(* CCPP_LOOP_DIM_SUBSTS, var_props.py L46-51 *)
Definition loop_dim_substs : list (str * str) :=
  [(L "ccpp_constant_one:horizontal_dimension", L "horizontal_loop_begin:horizontal_loop_end");
   (L "ccpp_constant_one:vertical_layer_dimension", L "vertical_layer_index");
   (L "ccpp_constant_one:vertical_interface_dimension", L "vertical_interface_index")].

Section Texts.
  Variable call : dict -> option dict -> obj -> res str.
  (* L1981-1993; None: a name is missing *)
  Fixpoint collect (l : dict) (names : list str) : res (option (list str)) :=
    match names with
    | [] => Ok (Some [])
    | s :: r =>
        match find l s with
        | None => Ok None
        | Some o => t <- call l None o ;; m <- collect l r ;; Ok (option_map (cons t) m)
        end
    end.
  (* find_loop_dim_match, L1973-1995 *)
  Definition dim_match (l : dict) (dim : str) : res (option str) :=
    match get dim loop_dim_substs with
    | None => Ok None
    | Some sub => m <- collect l (split_on ":" sub) ;; Ok (option_map (join colon) m)
    end.
  (* L709-730 *)
  Definition item_text (d : dict) (lv : option dict) (s : str) : res str :=
    if str_eqb s [] then Ok []
    else match find d s with
         | Some o => call d lv o
         | None => match py_int s with Some _ => Ok s | None => Raise "CCPPError" end
         end.
  (* L702-741, one dimension; [if loop_vars] is false of an empty dictionary *)
  Definition dim_text (d : dict) (lv : option dict) (dim : str) : res str :=
    m <- (match lv with Some (e :: l) => dim_match (e :: l) dim | _ => Ok None end) ;;
    match m with
    | Some t => Ok t
    | None => ts <- map_res (item_text d lv) (split_on ":" dim) ;; Ok (join colon ts)
    end.
End Texts.

(* call_string of a Var and of a VarDDT; [fuel] is Python's recursion limit *)
Fixpoint call_string (fuel : nat) (d : dict) (lv : option dict) (o : obj) : res str :=
  match fuel with
  | 0 => Raise "RecursionError"
  | S f =>
      nd <- (match lv with None => Ok (plain (v_local (leaf o))) | Some _ => handle (leaf o) end) ;;
      match snd nd with
      | [] => Ok (prefix o ++ fst nd)
      | dims => ts <- map_res (dim_text (call_string f) d lv) dims ;;
                Ok (prefix o ++ fst nd ++ L "(" ++ join (L ", ") ts ++ L ")")
      end
  end.

(* the first dictionary that has the variable, L628-634 *)
Fixpoint first_with (ds : list dict) (s : str) : option (dict * obj) :=
  match ds with
  | [] => None
  | d :: r => match find d s with Some o => Some (d, o) | None => first_with r s end
  end.
(* L617-624 *)
Fixpoint first_match (call : dict -> option dict -> obj -> res str) (ds : list dict) (dim : str) : res (option str) :=
  match ds with
  | [] => Ok None
  | d :: r => m <- dim_match call d dim ;; match m with Some t => Ok (Some t) | None => first_match call r dim end
  end.
(* L628-653: the names of one dimension; None where there is no variable *)
Definition dim_name (call : dict -> option dict -> obj -> res str) (ds : list dict) (s : str) : res (option str) :=
  match first_with ds s with
  | Some (d, o) => t <- call d None o ;; Ok (Some t)
  | None => Ok None
  end.
Fixpoint all_some {A} (l : list (option A)) : option (list A) :=
  match l with
  | [] => Some []
  | Some a :: r => option_map (cons a) (all_some r)
  | None :: _ => None
  end.
(* L610-657, one dimension; None: the message is not empty.  Each text is true: a text found
   by find_loop_dim_match is not empty, since no variable has an empty name *)
Definition dimension (call : dict -> option dict -> obj -> res str) (ds : list dict) (explicit subst : bool) (dim : str) : res (option str) :=
  let names := split_on ":" dim in
  let add := explicit || (length names =? 1) in
  if negb add then Ok (Some colon)
  else
    m <- (if subst then first_match call ds dim else Ok None) ;;
    match m with
    | Some t => Ok (Some t)
    | None => ts <- map_res (dim_name call ds) names ;; Ok (option_map (join colon) (all_some ts))
    end.
(* L662-673 *)
Definition dim_string (l : list str) : str := match l with [] => [] | _ => L "(" ++ join (L ",") l ++ L ")" end.
(* call_dimstring *)
Definition call_dimstring (fuel : nat) (v : var) (dicts : option (list dict)) (explicit subst : bool) : res str :=
  nd <- handle v ;;
  match dicts with
  | None => Ok (dim_string (map (fun _ => colon) (snd nd)))
  | Some ds =>
      ts <- map_res (dimension (call_string fuel) ds explicit subst) (snd nd) ;;
      match all_some ts with Some l => Ok (dim_string l) | None => Raise "CCPPError" end
  end.
