(* DataModel.v: scripts/ccpp_datafile.py: the variable-list query of the datatable
   (_find_var_dictionary L400-444, _retrieve_suite_group_names L476-510,
   _is_variable_protected L513-554, _retrieve_variable_list L557-679), the part of
   generate_ccpp_datatable that writes what the query reads (L1141-1166, with
   _new_variable_dictionary L997-1014, _add_suite_object_dictionaries L1017-1032), and
   the report layout _format_line (L742-819).
   Simplified: the XML tree is the record [xtable] of the attributes these functions
   read; every element has its name attribute; an absent <variables> element is an empty
   one; the table has an <api>, a <suites> and a <var_dictionaries> element, as every
   generated table does (without the last, iterating over None is a TypeError). *)
From Verif Require Import PyStr ReqModel.
Open Scope nat_scope.
Open Scope list_scope.

Record xvar := mkXVar { xv_name : str; xv_intent : option str; xv_protected : option str }.
Record xdict := mkXDict { xd_name : str; xd_type : str; xd_parent : option str; xd_vars : list xvar }.
(* a suite: its name and its sub-elements (tag, name) *)
Record xsuite := mkXSuite { xs_name : str; xs_items : list (str * str) }.
Record xtable := mkXTable { xt_suites : list xsuite; xt_dicts : list xdict }.

(* (x is None) or (attr == x) *)
Definition is_none_or (o : option str) (a : str) : bool :=
  match o with None => true | Some x => str_eqb a x end.
(* _find_var_dictionary, L400-444; with neither argument it raises ValueError, which no
   caller can cause *)
Definition find_var_dictionary (t : xtable) (name type : option str) : option xdict :=
  find (fun d => is_none_or name (xd_name d) && is_none_or type (xd_type d)) (xt_dicts t).
(* _retrieve_suite_group_names, L476-510 *)
Definition suite_group_names (t : xtable) (suite : str) : list str :=
  flat_map (fun s => if str_eqb (xs_name s) suite
                     then map snd (List.filter (fun i => str_eqb (fst i) (L "group")) (xs_items s)) else [])
           (xt_suites t).
(* _is_variable_protected, one dictionary: L534-542 *)
Definition protected_here (v : str) (d : xdict) : bool :=
  match find (fun x => str_eqb (xv_name x) v) (xd_vars d) with
  | Some x => match xv_protected x with Some p => str_eqb p (L "True") | None => false end
  | None => false
  end.
(* _is_variable_protected: the while loop, L533-553.  [fuel] bounds the number of turns:
   None says that the loop is still running after that many. *)
Fixpoint is_variable_protected (fuel : nat) (t : xtable) (v : str) (d : option xdict) : option bool :=
  match d with
  | None => Some false
  | Some d =>
      match fuel with
      | 0 => None
      | S k =>
          if protected_here v d then Some true
          else is_variable_protected k t v
                 (match xd_parent d with Some p => find_var_dictionary t (Some p) None | None => None end)
      end
  end.
(* exclude, L630-635 *)
Definition exclude (fuel : nat) (t : xtable) (excl : bool) (v : str) (d : xdict) : option bool :=
  if excl then is_variable_protected fuel t v (Some d) else Some false.
(* the loop over the host variables, L628-646: var_set and excl_vars *)
Fixpoint host_scan (fuel : nat) (t : xtable) (excl host : bool) (h : xdict) (vars : list xvar)
         (acc : list str * list str) : option (list str * list str) :=
  match vars with
  | [] => Some acc
  | x :: r =>
      match exclude fuel t excl (xv_name x) h with
      | None => None
      | Some e =>
          host_scan fuel t excl host h r
            (if host then (if e then fst acc else s_add (fst acc) (xv_name x), snd acc)
             else (fst acc, if e then snd acc ++ [xv_name x] else snd acc))
      end
  end.
(* the loop over the variables of one call list, L660-674 *)
Fixpoint group_scan (fuel : nat) (t : xtable) (excl : bool) (excl_vars allowed : list str) (d : xdict)
         (vars : list xvar) (acc : list str) : option (list str) :=
  match vars with
  | [] => Some acc
  | x :: r =>
      match (if excl then if mem (xv_name x) excl_vars then Some true
                          else is_variable_protected fuel t (xv_name x) (Some d)
             else Some false) with
      | None => None
      | Some e =>
          let ok := match xv_intent x with Some i => mem i allowed | None => false end in
          group_scan fuel t excl excl_vars allowed d r
            (if ok && negb e then s_add acc (xv_name x) else acc)
      end
  end.
(* the loop over the groups, L651-676 *)
Fixpoint groups_scan (fuel : nat) (t : xtable) (excl : bool) (excl_vars allowed : list str)
         (groups : list str) (acc : list str) : option (list str) :=
  match groups with
  | [] => Some acc
  | g :: r =>
      match find_var_dictionary t (Some (g ++ L "_call_list")) (Some (L "group_call_list")) with
      | None => groups_scan fuel t excl excl_vars allowed r acc
      | Some d =>
          match group_scan fuel t excl excl_vars allowed d (xd_vars d) acc with
          | None => None
          | Some acc' => groups_scan fuel t excl excl_vars allowed r acc'
          end
      end
  end.
(* the allowed intents, L610-621 *)
Definition allowed_intents (intent_type : option str) : res (list str) :=
  match intent_type with
  | None => Ok [L "in"; L "out"; L "inout"]
  | Some i =>
      if str_eqb i (L "host") then Ok []
      else if str_eqb i (L "input") then Ok [L "in"; L "inout"]
      else if str_eqb i (L "output") then Ok [L "out"; L "inout"]
      else Raise "CCPPDatatableError"
  end.
Definition is_host (intent_type : option str) : bool :=
  match intent_type with Some i => str_eqb i (L "host") | None => false end.
(* _retrieve_variable_list, L557-679 *)
Definition retrieve_variable_list (fuel : nat) (t : xtable) (suite : str) (intent_type : option str)
           (excl : bool) : option (res (list str)) :=
  match allowed_intents intent_type with
  | Raise e => Some (Raise e)
  | Ok allowed =>
      let host := is_host intent_type in
      let scanned :=
        if excl || host then
          match find_var_dictionary t None (Some (L "host")) with
          | Some h => host_scan fuel t excl host h (xd_vars h) ([], [])
          | None => Some ([], [])
          end
        else Some ([], []) in
      match scanned with
      | None => None
      | Some (vset, ev) =>
          if host then Some (Ok (sorted vset))
          else match groups_scan fuel t excl ev allowed (suite_group_names t suite) vset with
               | None => None
               | Some vset => Some (Ok (sorted vset))
               end
      end
  end.

(* ---- the table capgen writes, L1141-1166 ----
   A group: its name in the suite definition file, whether it has parts, its call list,
   its own variables, and the dictionaries of its parts (_add_suite_object_dictionaries
   recurses; the type of a part is the lower-case name of its class, followed by _call_list
   for its call list, and no class of a part is called Group). *)
Record ggroup := mkGG { gg_name : str; gg_parts : bool; gg_call : list xvar; gg_own : list xvar;
                        gg_inner : list xdict }.
Record gsuite := mkGS { gs_name : str; gs_parent : option str; gs_vars : list xvar; gs_groups : list ggroup }.
Record gapi := mkGA { ga_host : xdict; ga_api : xdict; ga_suites : list gsuite }.
(* Group.__init__, suite_objects.py L2150 *)
Definition full_name (s : gsuite) (g : ggroup) : str := gs_name s ++ L "_" ++ gg_name g.
(* the <suite> element, L1146-1157 *)
Definition suite_elem (s : gsuite) : xsuite :=
  mkXSuite (gs_name s) (map (fun g => (L "group", full_name s g)) (List.filter gg_parts (gs_groups s))).
(* _add_suite_object_dictionaries of a group, L1017-1032; the call list of a SuiteObject is
   named after it (suite_objects.py L221), and an empty one is false *)
Definition group_dicts (s : gsuite) (g : ggroup) : list xdict :=
  mkXDict (full_name s g) (L "group") (Some (gs_name s)) (gg_own g) ::
  (if nonempty (gg_call g) then
     [mkXDict (full_name s g ++ L "_call_list") (L "group_call_list") (Some (gs_name s)) (gg_call g)] else []) ++
  gg_inner g.
Definition suite_dicts (s : gsuite) : list xdict :=
  mkXDict (gs_name s) (L "suite") (gs_parent s) (gs_vars s) :: flat_map (group_dicts s) (gs_groups s).
Definition generate_table (a : gapi) : xtable :=
  mkXTable (map suite_elem (ga_suites a))
           (ga_host a :: ga_api a :: flat_map suite_dicts (ga_suites a)).

(* ---- _format_line, L742-819 ---- *)
(* the positions of ' ' in the line (L780-795).  in_squote and in_dquote are set to False at
   the start and to nothing else, so those two branches never run. *)
Fixpoint spaces_from (i : nat) (s : str) : list nat :=
  match s with
  | [] => []
  | c :: r => if Ascii.eqb c " " then i :: spaces_from (S i) r else spaces_from (S i) r
  end.
(* max(good_points): the last of the increasing list that is at most w; L801 *)
Definition last_good (w : nat) (l : list nat) : option nat :=
  match rev (List.filter (fun x => x <=? w) l) with [] => None | x :: _ => Some x end.
(* _indent_str, L736-739: istr is _INDENT_STR *)
Definition indent_str (istr : str) (n : nat) : str := List.concat (repeat istr n).
(* line_wrap: 0 stands for every value below one (no wrapping).
   fuel: the recursion is on a strictly shorter line; length line_in is enough (C38_fuel) *)
Fixpoint format_line (fuel : nat) (istr line_in : str) (indent line_wrap : nat) (incr : bool) : str :=
  let ind := indent_str istr indent in
  let cur := length ind in
  let line := strip line_in in
  if (line_wrap =? 0) || (length line + cur <=? line_wrap) then ind ++ line ++ [nl]
  else
    let wraps := spaces_from cur line in
    let next := if incr then indent + 2 else indent in
    match (match last_good line_wrap wraps with
           | Some p => Some (p - cur)
           | None => match wraps with p :: _ => Some (p - cur) | [] => None end
           end) with
    | None => ind ++ line ++ [nl]
    | Some wrap =>
        ind ++ firstn wrap line ++ [nl] ++
        match fuel with
        | 0 => []
        | S k => format_line k istr (skipn (S wrap) line) next line_wrap false
        end
    end.
