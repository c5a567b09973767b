(* MetaModel.v: model of scripts/parse_tools/parse_object.py (ParseObject) and of the
   reading of metadata files in scripts/metadata_table.py: blank_metadata_line,
   _parse_config_line, parse_metadata_file, find_scheme_names,
   MetadataTable.__init_from_file, MetadataSection.__init_from_file, parse_variable,
   check_array_reference, variable_start, section_table_mismatch.
   Left out: reading the file into lines, contexts and the text of messages, the
   registration of DDT names (register_fortran_ddt_name), making dependencies
   absolute (os.path), logging. *)
From Verif Require Import PyStr Regex PhaseModel CheckModel ReqModel.
From Coq Require Import Lia.
Open Scope nat_scope.
Open Scope list_scope.

(* ==== ParseObject, parse_object.py L10-153 ==== *)
(* __lines, line_num, __line_next; __line_start and __line_end are not modelled *)
Record pobj := mkPO { po_lines : list str; po_num : nat; po_next : nat; po_msgs : list str; po_errs : nat }.
(* __init__, L38-47; the error message is kept as its list of lines *)
Definition po_new (lines : list str) (start : nat) : pobj := mkPO lines start start [] 0.
Definition po_at (o : pobj) (num next : nat) : pobj := mkPO (po_lines o) num next (po_msgs o) (po_errs o).
(* a line ending in a backslash, L81 *)
Definition backslash : ascii := "092"%char.
Definition continued (l : str) : bool := match rev l with c :: _ => Ascii.eqb c backslash | [] => false end.
(* curr_line L65-93, next_line L95-99: mutually recursive; every call of next_line from
   curr_line advances the line number, so [fuel] is the number of lines left *)
Fixpoint curr_line_f (fuel : nat) (o : pobj) : option str * pobj :=
  match nth_error (po_lines o) (po_num o) with
  | None => (None, o)
  | Some raw =>
      let line := rstrip raw in
      let o1 := po_at o (po_num o) (S (po_num o)) in
      if continued line then
        match fuel with
        | 0 => (Some (removelast line), o1)
        | S f =>
            let '(nxt, o2) := curr_line_f f (po_at o1 (po_next o1) (po_next o1)) in
            (Some (removelast line ++ match nxt with Some t => t | None => [] end), po_at o2 (po_num o) (po_next o2))
        end
      else (Some line, o1)
  end.
Definition curr_line (o : pobj) : option str * pobj := curr_line_f (length (po_lines o) - po_num o) o.
Definition next_line (o : pobj) : option str * pobj := curr_line (po_at o (po_next o) (po_next o)).
(* add_syntax_err, L108-136; _max_errors, L35.  [msg] is the new entry *)
Definition max_errors : nat := 32.
Definition add_syntax_err (o : pobj) (msg : str) : res pobj :=
  let full := Nat.eqb (po_errs o) max_errors && nonempty (po_msgs o) in
  if nonempty (po_msgs o) && (max_errors <? po_errs o) then Raise "CCPPError"
  else
    let msgs := if full then po_msgs o ++ [L "Maximum number of errors exceeded"] else po_msgs o in
    let n := length (po_lines o) in
    let num := if full then n else po_num o in
    let next := if full then n else po_next o in
    Ok (mkPO (po_lines o) num next (if po_errs o <? max_errors then msgs ++ [msg] else msgs) (S (po_errs o))).

(* ==== lines, metadata_table.py L150-180 ==== *)
(* blank_metadata_line, L152-156 *)
Definition blank_re : re := Cat ws_re (Cls (fun c => Ascii.eqb c "#" || Ascii.eqb c ";")).
Definition blank_metadata_line (l : str) : bool := match l with [] => true | _ => re_prefix blank_re l end.
(* prop.split('=', 1), L170: None if there is no '=' *)
Fixpoint split_eq (s : str) : option (str * str) :=
  match s with
  | [] => None
  | c :: t => if Ascii.eqb c "=" then Some ([], t) else match split_eq t with Some (a, b) => Some (c :: a, b) | None => None end
  end.
Fixpoint split_props (l : list str) : res (list (str * str)) :=
  match l with
  | [] => Ok []
  | p :: r => match split_eq p with
              | Some kv => rest <- split_props r ;; Ok (kv :: rest)
              | None => Raise "ParseSyntaxError: variable property syntax"
              end
  end.
(* _parse_config_line, L160-180; the None line is not modelled (no caller passes it) *)
Definition parse_config_line (l : str) : res (list (str * str)) :=
  if blank_metadata_line l then Ok [] else split_props (split_on "|" (strip l)).

(* __table_start L272, __header_start L618, table_start L505-514, header_start L1317-1327 *)
Definition marker_re (w : str) : re := Cat ws_re (Cat (ch "[") (Cat ws_re (Cat (wordi w) (Cat ws_re (ch "]"))))).
Definition table_start (l : str) : bool := negb (blank_metadata_line l) && re_prefix (marker_re (L "ccpp-table-properties")) l.
Definition header_start (l : str) : bool := negb (blank_metadata_line l) && re_prefix (marker_re (L "ccpp-arg-table")) l.
(* __var_start L620, __vref_start L622; "$": the lines carry no newline *)
Definition var_re : re := Cat (ch "[") (Cat ws_re (Cat fortran_id_re (Cat ws_re (ch "]")))).
Definition vref_re : re := Cat (ch "[") (Cat ws_re (Cat scalar_ref_re (Cat ws_re (ch "]")))).
(* variable_start, L1177-1200.  The groups: the name is what is between the brackets,
   blanks removed; for a reference, group 1 is the leading identifier and group 2 all
   between the parentheses but leading blanks *)
Definition between (l : str) : str := strip (removelast (tl l)).
Definition vref_name (l : str) : str :=
  takewhile is_word (between l) ++ L "(" ++ lstrip (tl (dropwhile (fun c => negb (Ascii.eqb c "(")) (between l))).
Definition variable_start (l : str) : res (option str) :=
  let name := if re_full var_re l then Some (between l) else if re_full vref_re l then Some (vref_name l) else None in
  match name with
  | None => Ok None
  | Some n => r <- check_fortran_ref n false 0 ;;
              match r with Some _ => Ok (Some n) | None => Raise "CCPPError: local variable name" end
  end.

(* ==== variables ==== *)
(* a property value: text, or the list of dimensions *)
Inductive pval := PText (s : str) | PList (l : list str).
Definition props := list (str * pval).
(* dict[key] = value and dict.get(key) *)
Fixpoint put (k : str) (v : pval) (d : props) : props :=
  match d with
  | [] => [(k, v)]
  | (k', v') :: t => if str_eqb k k' then (k, v) :: t else (k', v') :: put k v t
  end.
Fixpoint look (k : str) (d : props) : option pval :=
  match d with [] => None | (k', v) :: t => if str_eqb k k' then Some v else look k t end.
(* what the parser asks of metavar.py: Var.get_prop(name) and its valid_value;
   whether Var(...) and VarDictionary.add_variable succeed *)
Record checker := mkC { c_prop : str -> option (str -> option pval); c_var : props -> bool; c_add : list props -> props -> bool }.

(* L928-938: dimensions become ranges *)
Definition to_range (d : str) : str := if existsb (Ascii.eqb ":") d then d else L "ccpp_constant_one:" ++ d.
Definition ranges (k : str) (p : pval) : pval :=
  if str_eqb k (L "dimensions") then match p with PList l => PList (map to_range l) | PText s => PText s end else p.
(* one property of a variable, L886-943; [bound]: the local pval has been assigned.
   Every recorded error ends in an exception when the table is complete (L445-448), so
   the model raises at once *)
Definition var_item (C : checker) (skip : bool) (ddts : list str) (st : bool * props) (kv : str * str) : res (bool * props) :=
  let '(bound, d) := st in
  let k := lower (strip (fst kv)) in
  let v := strip (snd kv) in
  intr <- check_fortran_intrinsic v false ;;
  if str_eqb k (L "type") && negb (is_some intr) then
    if skip || mem v ddts then Ok (true, put (L "ddt_type") (PText v) d) else Raise "CCPPError: Unknown DDT type"
  else match c_prop C k with
       | None => if bound then Raise "CCPPError: variable property name" else Raise "UnboundLocalError"
       | Some valid => match valid v with
                       | None => Raise "CCPPError: property value"
                       | Some p => Ok (true, put k (ranges k p) d)
                       end
       end.
Fixpoint var_items (C : checker) (skip : bool) (ddts : list str) (st : bool * props) (l : list (str * str)) : res (bool * props) :=
  match l with [] => Ok st | kv :: r => st' <- var_item C skip ddts st kv ;; var_items C skip ddts st' r end.
(* the loop of parse_variable, L874-942; the second result are the lines from the
   current one on *)
Fixpoint var_lines (C : checker) (skip : bool) (ddts : list str) (st : bool * props) (ls : list str) : res (props * list str) :=
  match ls with
  | [] => Ok (snd st, [])
  | l :: r =>
      if header_start l || table_start l then Ok (snd st, ls)
      else n <- variable_start l ;;
           match n with
           | Some _ => Ok (snd st, ls)
           | None => items <- parse_config_line l ;; st' <- var_items C skip ddts st items ;; var_lines C skip ddts st' r
           end
  end.
(* check_array_reference, L961-1025; ref_tokens gives rmatch.group(1) and the stripped
   pieces of rmatch.group(2) *)
Definition check_array_reference (name : str) (d : props) : res (option str) :=
  r <- check_fortran_id name false 0 ;;
  match r with
  | Some _ => Ok None
  | None =>
      if negb (re_dollar scalar_ref_re name) then Raise "ParseInternalError: Invalid scalar reference"
      else match look (L "dimensions") d with
           | Some (PList vdims) =>
               let rdims := tl (ref_tokens name) in
               if Nat.eqb (length (List.filter (str_eqb (L ":")) rdims)) (length vdims)
               then Ok (Some (hd [] (ref_tokens name) ++ L "(" ++ join (L ", ") rdims ++ L ")"))
               else Raise "ParseInternalError: rank"
           | _ => Raise "ParseInternalError: Missing variable dimensions"
           end
  end.
(* the rest of parse_variable, L846-872 and L943-958 *)
Definition parse_variable (C : checker) (skip : bool) (ddts : list str) (name : str) (ls : list str) : res (props * list str) :=
  r <- var_lines C skip ddts (false, [(L "local_name", PText name)]) ls ;;
  let '(d, rest) := r in
  sub <- check_array_reference name d ;;
  let d' := match sub with Some s => put (L "local_name") (PText s) d | None => d end in
  if c_var C d' then Ok (d', rest) else Raise "CCPPError".

(* ==== sections ==== *)
Record section := mkS { s_title : str; s_type : str; s_module : str; s_process : str; s_vars : list props }.
Record preamble := mkP { p_title : option str; p_type : option str; p_module : option str; p_process : str }.
Definition scheme_type : str := L "scheme".
Definition singleton_types : list str := [L "ddt"; L "host"; L "module"].
Definition table_types : list str := singleton_types ++ [scheme_type].
Definition header_types : list str := table_types ++ [L "local"].
Definition unknown_process : str := L "UNKNOWN".
(* L750-783 *)
Definition sec_item (p : preamble) (kv : str * str) : res preamble :=
  let k := lower (strip (fst kv)) in
  let v := strip (snd kv) in
  if str_eqb k (L "name") then Ok (mkP (Some v) (p_type p) (p_module p) (p_process p))
  else if str_eqb k (L "type") then
    if mem v header_types then Ok (mkP (p_title p) (Some v) (p_module p) (p_process p)) else Raise "CCPPError: metadata table type"
  else if str_eqb k (L "module") then
    if str_eqb v (L "None") then Raise "CCPPError: metadata table, no module" else Ok (mkP (p_title p) (p_type p) (Some v) (p_process p))
  else if str_eqb k (L "process") then Ok (mkP (p_title p) (p_type p) (p_module p) v)
  else Raise "CCPPError: metadata table start property".
Fixpoint sec_items (p : preamble) (l : list (str * str)) : res preamble :=
  match l with [] => Ok p | kv :: r => p' <- sec_item p kv ;; sec_items p' r end.
(* L746-785 *)
Fixpoint sec_lines (p : preamble) (ls : list str) : res (preamble * list str) :=
  match ls with
  | [] => Ok (p, [])
  | l :: r =>
      n <- variable_start l ;;
      match n with
      | Some _ => Ok (p, ls)
      | None =>
          if header_start l || table_start l then Ok (p, ls)
          else items <- parse_config_line l ;; p' <- sec_items p items ;; sec_lines p' r
      end
  end.
(* section_table_mismatch, L1140-1174: true if they differ *)
Definition sect_func (title type : str) : str :=
  if str_eqb type scheme_type then
    match function_match ccpp_machine title None with Ok (Some (f, _, _)) => f | _ => title end
  else title.
Definition opt_is (o : option str) (s : str) : bool := match o with Some x => str_eqb x s | None => false end.
Definition mismatch (title type : str) (tname ttype : option str) : bool :=
  negb (opt_is ttype type) || negb (opt_is tname (sect_func title type)).
(* the variables, L822-845; [fuel] bounds the number of variables *)
Fixpoint sec_vars (fuel : nat) (C : checker) (skip : bool) (ddts : list str) (vars : list props) (ls : list str) : res (list props * list str) :=
  match fuel with
  | 0 => Raise "fuel"
  | S f =>
      match ls with
      | [] => Ok (vars, [])
      | l :: r =>
          if header_start l || table_start l then Ok (vars, ls)
          else n <- variable_start l ;;
               match n with
               | None => Ok (vars, ls)
               | Some name =>
                   v <- parse_variable C skip ddts name r ;;
                   let '(d, rest) := v in
                   if c_add C vars d then sec_vars f C skip ddts (vars ++ [d]) rest else Raise "CCPPError: add_variable"
               end
      end
  end.
(* MetadataSection.__init_from_file, L741-845; [ls] are the lines after the header line;
   [dmod] is the default module (_default_module, L723-739).  Results: the section, the
   known DDTs and the lines left *)
Definition parse_section (C : checker) (skip : bool) (dmod : str) (tname ttype : option str) (ddts : list str) (ls : list str)
  : res (section * list str * list str) :=
  r <- sec_lines (mkP None None None unknown_process) ls ;;
  let '(p, rest) := r in
  match p_title p, p_type p with
  | Some title, Some type =>
      if negb (str_eqb type scheme_type) && negb (str_eqb (p_process p) unknown_process) then Raise "CCPPError: process keyword"
      else if mismatch title type tname ttype then Raise "CCPPError: mismatch"
      else
        let ddts' := if str_eqb type (L "ddt") then ddts ++ [title] else ddts in
        let m := match p_module p with Some m => m | None => dmod end in
        v <- sec_vars (S (length rest)) C skip ddts' [] rest ;;
        let '(vars, rest') := v in
        Ok (mkS title type m (p_process p) vars, ddts', rest')
  | _, _ => Raise "CCPPError: metadata header start"
  end.

(* ==== tables ==== *)
(* t_deps: the dependencies as written *)
Record table := mkT { t_name : option str; t_type : option str; t_deps : list str; t_path : option str; t_sections : list section }.
(* __dependencies is None after "dependencies = none" *)
Record thead := mkH { h_name : option str; h_type : option str; h_deps : option (list str); h_path : option str }.
(* L414-416 *)
Definition dep_names (v : str) : list str := List.filter nonempty (map strip (split_on "," v)).
(* L385-424 *)
Definition tab_item (h : thead) (kv : str * str) : res thead :=
  let k := lower (strip (fst kv)) in
  let v := strip (snd kv) in
  if str_eqb k (L "name") then Ok (mkH (Some v) (h_type h) (h_deps h) (h_path h))
  else if str_eqb k (L "type") then
    if mem v table_types then Ok (mkH (h_name h) (Some v) (h_deps h) (h_path h)) else Raise "CCPPError: metadata table type"
  else if str_eqb k (L "dependencies") then
    if str_eqb (lower v) (L "none") then
      match h_deps h with
      | Some (_ :: _) => Raise "CCPPError: dependencies = none is incompatible"
      | _ => Ok (mkH (h_name h) (h_type h) None (h_path h))
      end
    else match h_deps h with
         | None => Raise "CCPPError: Cannot add dependencies"
         | Some ds => Ok (mkH (h_name h) (h_type h) (Some (ds ++ dep_names v)) (h_path h))
         end
  else if str_eqb k (L "relative_path") then Ok (mkH (h_name h) (h_type h) (h_deps h) (Some v))
  else Raise "CCPPError: metadata table start property".
Fixpoint tab_items (h : thead) (l : list (str * str)) : res thead :=
  match l with [] => Ok h | kv :: r => h' <- tab_item h kv ;; tab_items h' r end.
(* the loop of MetadataTable.__init_from_file, L369-444; [inhdr] is
   in_properties_header *)
Fixpoint tab_lines (fuel : nat) (C : checker) (skip : bool) (dmod : str) (inhdr : bool) (h : thead) (secs : list section)
                   (ddts : list str) (ls : list str) : res (thead * list section * list str * list str) :=
  match fuel with
  | 0 => Raise "fuel"
  | S f =>
      match ls with
      | [] => Ok (h, secs, ddts, [])
      | l :: r =>
          if table_start l then Ok (h, secs, ddts, ls)
          else
            let inhdr' := inhdr && negb (header_start l) in
            if blank_metadata_line l then tab_lines f C skip dmod inhdr' h secs ddts r
            else if inhdr' then
              items <- parse_config_line l ;; h' <- tab_items h items ;; tab_lines f C skip dmod inhdr' h' secs ddts r
            else if header_start l then
              s <- parse_section C skip dmod (h_name h) (h_type h) ddts r ;;
              let '(sec, ddts', rest) := s in
              if Nat.eqb (length secs) 1 && match h_type h with Some t => mem t singleton_types | None => false end
              then Raise "CCPPError: table already contains a section"
              else tab_lines f C skip dmod inhdr' h (secs ++ [sec]) ddts' rest
            else Raise "CCPPError: metadata file line"
      end
  end.
(* MetadataTable.__init_from_file, L360-455; [ls] are the lines after the start line *)
Definition parse_table (C : checker) (skip : bool) (dmod : str) (ddts : list str) (ls : list str) : res (table * list str * list str) :=
  r <- tab_lines (S (length ls)) C skip dmod true (mkH None None (Some []) None) [] ddts ls ;;
  let '(h, secs, ddts', rest) := r in
  let ddts'' := if opt_is (h_type h) (L "ddt") then ddts' ++ match h_name h with Some n => [n] | None => [] end else ddts' in
  Ok (mkT (h_name h) (h_type h) (match h_deps h with Some d => d | None => [] end) (h_path h) secs, ddts'', rest).
(* parse_metadata_file, L184-222, on the logical lines of the file *)
Definition opt_eqb (a b : option str) : bool :=
  match a, b with Some x, Some y => str_eqb x y | None, None => true | _, _ => false end.
Fixpoint file_lines (fuel : nat) (C : checker) (skip : bool) (dmod : str) (ddts : list str) (ts : list table) (ls : list str) : res (list table) :=
  match fuel with
  | 0 => Raise "fuel"
  | S f =>
      match ls with
      | [] => Ok ts
      | l :: r =>
          if table_start l then
            t <- parse_table C skip dmod ddts r ;;
            let '(tab, ddts', rest) := t in
            if existsb (opt_eqb (t_name tab)) (map t_name ts) then Raise "CCPPError: Duplicate metadata table"
            else
              let ddts'' := if opt_is (t_type tab) (L "ddt") then ddts' ++ match t_name tab with Some n => [n] | None => [] end else ddts' in
              file_lines f C skip dmod ddts'' (ts ++ [tab]) rest
          else if blank_metadata_line l then file_lines f C skip dmod ddts ts r
          else Raise "ParseSyntaxError: CCPP metadata line"
      end
  end.
Definition parse_metadata_file (C : checker) (skip : bool) (dmod : str) (ddts : list str) (ls : list str) : res (list table) :=
  file_lines (S (length ls)) C skip dmod ddts [] ls.

(* ==== find_scheme_names, L226-263, on the lines of the file, newlines included ==== *)
(* the inner loop, L240-262; [ls] are the lines from fin_lines[context.line_num] on; the
   result: the names and the lines from fin_lines[context.line_num - 1] on *)
Fixpoint name_values (l : list (str * str)) : list str :=
  match l with
  | [] => []
  | (k, v) :: r => if str_eqb (lower (strip k)) (L "name") then strip v :: name_values r else name_values r
  end.
Fixpoint find_start (names : list str) (ls : list str) : res (list str * list str) :=
  match ls with
  | [] => Raise "IndexError"
  | raw :: r =>
      match strip raw with
      | [] => find_start names r
      | c :: t =>
          if Ascii.eqb c "[" then Ok (names, ls)
          else items <- parse_config_line (c :: t) ;; find_start (names ++ name_values items) r
      end
  end.
Fixpoint scheme_names (fuel : nat) (names : list str) (ls : list str) : res (list str) :=
  match fuel with
  | 0 => Raise "fuel"
  | S f =>
      match ls with
      | [] => Ok names
      | l :: r =>
          if table_start l then
            s <- find_start names r ;; let '(names', rest) := s in scheme_names f names' rest
          else scheme_names f names r
      end
  end.
Definition find_scheme_names (ls : list str) : res (list str) := scheme_names (S (length ls)) [] ls.
