(* HmModel.v: scripts/host_model.py, class HostModel: __init__ (L19-137), find_variable
   (L204-268), add_variable (L270-295), variable_locations (L176-202), call_list
   (L310-320), with the parts of VarDictionary they use (metavar.py, find_variable
   L1769-1820, add_variable L1612-1711, include_var_in_list L1577-1590, variable_list
   L1592-1610, find_local_name L1821-1839) and of DDTLibrary (ddt_library.py, L237-303,
   in DdtModel.v).
   Simplified: a variable is its local and standard name, its type and whether that is a
   derived type (field of DdtModel.v); sets are lists in which repetitions do not matter;
   an exception is its class.  find_variable is called with loop_subst False and no
   clone: no caller in the framework passes anything else. *)
From Verif Require Import PyStr Regex DictModel ReqModel DdtModel CheckModel.
Open Scope nat_scope.
Open Scope list_scope.

(* a metadata table of the host that is not a DDT definition *)
Record table := mkT { t_type : str; t_title : str; t_name : str; t_vars : list field }.
Record host := mkHost {
  m_name : option str;            (* name, L139 *)
  m_vars : list (str * field);    (* the dictionary itself *)
  m_ddt : ddict;                  (* __ddt_dict *)
  m_loc : list (str * str);       (* __var_locations; the last assignment comes first *)
  m_loop : option ddict }.        (* __loop_vars *)

(* CCPP_LOOP_VAR_STDNAMES, metavar.py L86-88 *)
Definition loop_names : list str :=
  map L ["horizontal_loop_extent"; "horizontal_loop_begin"; "horizontal_loop_end"; "vertical_layer_index"; "vertical_interface_index"]%string.
Definition is_loop (s : str) : bool := mem s loop_names.

(* HostModel.add_variable, L270-295, without exists_ok and gen_unique, then the check of
   the local name in VarDictionary.add_variable, metavar.py L1676-1688 *)
Definition add_variable (h : host) (v : field) : res host :=
  if str_eqb (f_std v) const_one || mem (f_std v) (map fst (m_vars h)) || mem (f_std v) (map fst (m_ddt h))
  then Raise "CCPPError"
  else if mem (lower (f_local v)) (map (fun e => lower (f_local (snd e))) (m_vars h)) then Raise "ParseSyntaxError"
  else Ok (mkHost (m_name h) (m_vars h ++ [(f_std v, v)]) (m_ddt h) (m_loc h) (m_loop h)).
(* self.__var_locations[lname] = modname, L58 *)
Definition locate (h : host) (l m : str) : host :=
  mkHost (m_name h) (m_vars h) (m_ddt h) ((l, m) :: m_loc h) (m_loop h).
(* collect_ddt_fields(self.__ddt_dict, var, run_env): the parent dictionary is the host's *)
Definition collect_fields (fuel : nat) (lib : library) (h : host) (v : field) : res host :=
  d <- collect_var fuel lib (map fst (m_vars h)) (m_ddt h) v false ;;
  Ok (mkHost (m_name h) (m_vars h) d (m_loc h) (m_loop h)).
(* check_ddt_type (ddt_library.py L237-252), then the components, L59-64 and L74-79 *)
Definition components_of (fuel : nat) (lib : library) (h : host) (v : field) : res host :=
  if f_ddt v then
    match get (f_type v) lib with
    | None => Raise "CCPPError"
    | Some _ => collect_fields fuel lib h v
    end
  else Ok h.
(* L56-66 *)
Definition module_var (fuel : nat) (lib : library) (modname : str) (h : host) (v : field) : res host :=
  h1 <- add_variable h v ;; components_of fuel lib (locate h1 (f_local v) modname) v.
(* L72-80 *)
Definition host_var (fuel : nat) (lib : library) (h : host) (v : field) : res host :=
  h1 <- add_variable h v ;; components_of fuel lib h1 v.
Fixpoint each {A B} (f : A -> B -> res A) (a : A) (l : list B) : res A :=
  match l with [] => Ok a | x :: l => a1 <- f a x ;; each f a1 l end.
(* L93-110 *)
Definition add_loop (d : ddict) (e : str * obj) : res ddict :=
  if mem (fst e) (map fst d) then Raise "CCPPError" else add_new d (snd e).
(* L82-110; variable_list(std_vars=False, loop_vars=True, consts=False) of the table and of
   the DDT dictionary *)
Definition set_loop (h : host) (vars : list field) : res host :=
  let lv := map (fun v => (f_std v, OVar v)) (List.filter (fun v => is_loop (f_std v)) vars)
            ++ List.filter (fun e => is_loop (fst e)) (m_ddt h) in
  match lv with
  | [] => Ok h
  | _ => d <- each add_loop [] lv ;; Ok (mkHost (m_name h) (m_vars h) (m_ddt h) (m_loc h) (Some d))
  end.
(* L68-71 *)
Definition name_it (h : host) (n : str) : host :=
  match m_name h with
  | Some _ => h
  | None => mkHost (Some n) (m_vars h) (m_ddt h) (m_loc h) (m_loop h)
  end.
(* the body of the loop over the tables, L48-117 *)
Definition add_table (fuel : nat) (lib : library) (h : host) (t : table) : res host :=
  if str_eqb (t_type t) (L "module") then each (module_var fuel lib (t_title t)) h (t_vars t)
  else if str_eqb (t_type t) (L "host") then
    h1 <- each (host_var fuel lib) (name_it h (t_name t)) (t_vars t) ;; set_loop h1 (t_vars t)
  else Raise "CCPPError".
(* ccpp_cap_name, L328-330; constituent_model_object_name, L322-325 *)
Definition cap_name (n : str) : str := n ++ L "_ccpp_cap".
Definition const_obj (n : str) : field :=
  mkF (n ++ L "_constituents_obj") (L "ccpp_model_constituents_object") (L "ccpp_model_constituents_t") true.
(* HostModel.__init__, L19-137; [consts]: the type of constituent properties is registered *)
Definition build (fuel : nat) (lib : library) (consts : bool) (name : option str) (ts : list table) : res host :=
  h <- each (add_table fuel lib) (mkHost name [] [] [] None) ts ;;
  match m_name h with
  | None => Raise "CCPPError"
  | Some n =>
      if consts then
        h1 <- add_variable h (const_obj n) ;;
        collect_fields fuel lib (locate h1 (f_local (const_obj n)) (cap_name n)) (const_obj n)
      else Ok h
  end.

(* ---- use of the host model ---- *)
(* the constant 'ccpp_constant_one', metavar.py L29-32 and L2109-2112 *)
Definition const_field : field := mkF (L "1") const_one (L "integer") false.
(* VarDictionary.find_variable, then the DDT dictionary, L210-227 *)
Definition lookup (h : host) (s : str) : option obj :=
  if str_eqb s const_one then Some (OVar const_field)
  else match get s (m_vars h) with Some f => Some (OVar f) | None => get s (m_ddt h) end.
(* __used_variables and __deferred_finds *)
Definition meter := (list str * list str)%type.
(* the subscripts of an array reference without those with a colon, L254-257; group(2) of
   FORTRAN_SCALAR_REF_RE is the text between the parentheses, whose parts ref_tokens has
   after the array's name *)
Definition indices (l : str) : list str :=
  if re_dollar scalar_ref_re l
  then List.filter (fun x => negb (existsb (Ascii.eqb ":"%char) x)) (List.tl (ref_tokens l))
  else [].
(* L260-263: the local name of the variable, or of the structure a component belongs to *)
Definition root_local (o : obj) : str := f_local (own o).
(* find_variable, L204-268; [fuel] bounds the recursion *)
Fixpoint find (fuel : nat) (h : host) (st : meter) (s : str) : res (option obj * meter) :=
  match fuel with
  | 0 => Raise "RecursionError"
  | S fuel =>
      match lookup h s with
      | None => Ok (None, (fst st, s :: snd st))
      | Some o =>
          st1 <- each (fun st i => r <- find fuel h st i ;; Ok (snd r)) st (indices (f_local (leaf o))) ;;
          Ok (Some o, (root_local o :: fst st1, snd st1))
      end
  end.
(* the searches of a run of the framework, one after the other *)
Definition requests (fuel : nat) (h : host) (st : meter) (ss : list str) : res meter :=
  each (fun st s => r <- find fuel h st s ;; Ok (snd r)) st ss.
(* one round of L185-191 *)
Definition retry (fuel : nat) (h : host) (st : meter) (s : str) : res meter :=
  r <- find fuel h st s ;;
  match fst r with
  | Some _ => Ok (fst (snd r), List.filter (fun x => negb (str_eqb s x)) (snd (snd r)))
  | None => Ok (snd r)
  end.
(* variable_locations, L176-202 *)
Definition locations (fuel : nat) (h : host) (st : meter) : res (list (str * str)) :=
  st1 <- each (retry fuel h) st (snd st) ;;
  let cap := match m_name h with Some n => cap_name n | None => L "None_ccpp_cap" end in
  Ok (flat_map (fun e =>
        let l := f_local (snd e) in
        match get l (m_loc h) with
        | Some m => if negb (str_eqb m []) && mem l (fst st1) && negb (str_eqb m cap) then [(m, l)] else []
        | None => []
        end) (m_vars h)).
(* include_var_in_list, metavar.py L1577-1590, with std_vars True and consts False *)
Definition include (loop_vars : bool) (s : str) : bool :=
  (is_loop s && loop_vars) || negb (is_loop s || str_eqb s const_one).
(* call_list, L310-320 *)
Definition call_list (h : host) (phase : str) : list field :=
  List.filter (fun v => match get (f_local v) (m_loc h) with None => true | Some _ => false end)
    (List.filter (fun v => include (str_eqb phase (L "run")) (f_std v)) (map snd (m_vars h))).
