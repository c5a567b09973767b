(* DfModel.v: scripts/ccpp_datafile.py: the sections of the datatable that hold the generated
   files, the schemes, the suites and the dependencies (generate_ccpp_datatable L1106-1184 with
   _add_generated_files L1057-1082, _new_scheme_entry L930-994, _new_var_entry L885-927 for a
   short entry, _add_dependencies L1035-1054), and the queries that read them back
   (_find_table_section L229-250, _retrieve_ccpp_files L253-290, _retrieve_process_list
   L293-324, _retrieve_module_list L327-359, _retrieve_dependencies L362-397,
   _retrieve_suite_list L447-473, datatable_report L682-733).  The tree that is written is an
   [elem] (XmlModel.v), the tree that is read back is a [tree] (XmlSpec.v).
   Simplified: no scheme is called "scheme" (L934 looks for an element whose tag is the
   scheme's name, so any other scheme gets a new element each time); the groups under a suite
   and the variable dictionaries are given elements; the dependency sets are lists, in the
   order in which the set is walked; the three variable queries are in DataModel.v. *)
From Verif Require Import PyStr ReqModel XmlModel XmlSpec.
Open Scope nat_scope.
Open Scope list_scope.

Definition leaf (tag text : str) : elem := Elem tag [] text [].
(* os.path.join(dir, name), name relative *)
Definition path_join (dir name : str) : str :=
  match dir with [] => name | _ => if Ascii.eqb (last dir " "%char) "/" then dir ++ name else dir ++ "/"%char :: name end.
(* _add_generated_files, L1057-1082 *)
Definition add_generated_files (host_files suite_files : list str) (ccpp_kinds src_dir : str) : elem :=
  Elem (L "ccpp_files") [] []
    [Elem (L "utilities") [] []
       [leaf (L "file") ccpp_kinds;
        leaf (L "file") (path_join src_dir (L "ccpp_constituent_prop_mod.F90"));
        leaf (L "file") (path_join src_dir (L "ccpp_hashable.F90"));
        leaf (L "file") (path_join src_dir (L "ccpp_hash_table.F90"))];
     Elem (L "host_files") [] [] (map (leaf (L "file")) host_files);
     Elem (L "suite_files") [] [] (map (leaf (L "file")) suite_files)].
(* _add_dependencies, L1035-1054 *)
Definition add_dependencies (scheme_depends host_depends : list str) : elem :=
  Elem (L "dependencies") [] [] (map (leaf (L "dependency")) host_depends ++ map (leaf (L "dependency")) scheme_depends).

(* a scheme as it stands in a group: its name, its group, its phase, whether that is the run
   phase, whether it has an entry point for this phase (_has_run_phase), the subroutine, the
   file, and the standard name, intent and local name of its arguments *)
Record scall := mkSC { sc_name : str; sc_group : str; sc_phase : str; sc_run : bool; sc_has : bool;
                       sc_sub : str; sc_file : str; sc_args : list (str * str * str) }.
(* the metadata header of a subroutine: its title, process and module *)
Record header := mkHd { hd_title : str; hd_process : str; hd_module : str }.
Definition nonblank_attr (k v : str) : list (str * str) := match v with [] => [] | _ => [(k, v)] end.
(* _new_var_entry with full_entry=False, L903-917 *)
Definition var_entry (a : str * str * str) : elem :=
  let '(n, i, l) := a in
  Elem (L "var") ((L "name", n) :: nonblank_attr (L "intent") i ++ nonblank_attr (L "local_name") l) [] [].
(* _new_scheme_entry, L930-994 *)
Definition new_scheme_entry (headers : list header) (s : scall) : res elem :=
  let tag := if sc_run s then sc_group s else sc_phase s in
  match tag with
  | [] => Raise "CCPPDatatableError: No phase info"
  | _ =>
      if negb (sc_has s) then Ok (Elem (L "scheme") [(L "name", sc_name s)] [] [])
      else match List.find (fun h => str_eqb (hd_title h) (sc_sub s)) headers with
           | None => Raise "CCPPDatatableError: Could not find metadata header"
           | Some h =>
               let proc := if str_eqb (hd_process h) (L "UNKNOWN") then [] else hd_process h in
               Ok (Elem (L "scheme") ((L "name", sc_name s) :: nonblank_attr (L "process") proc) []
                     [Elem tag ([(L "name", sc_name s); (L "subroutine_name", sc_sub s); (L "filename", sc_file s)]
                                ++ nonblank_attr (L "module") (hd_module h)) []
                        [Elem (L "call_list") [] [] (map var_entry (sc_args s))]])
           end
  end.
Fixpoint map_r {A B} (f : A -> res B) (l : list A) : res (list B) :=
  match l with [] => Ok [] | x :: t => y <- f x ;; ys <- map_r f t ;; Ok (y :: ys) end.
Fixpoint dup_title (seen : list str) (l : list header) : bool :=
  match l with [] => false | h :: t => mem (hd_title h) seen || dup_title (hd_title h :: seen) t end.
(* a suite: its name, its file and the elements of its groups *)
Record dsuite := mkDS { ds_name : str; ds_file : str; ds_groups : list elem }.
Record dinput := mkDI { di_host_files : list str; di_suite_files : list str; di_kinds : str; di_src : str;
                        di_headers : list header; di_calls : list scall; di_suites : list dsuite;
                        di_dicts : list elem; di_scheme_deps : list str; di_host_deps : list str }.
(* generate_ccpp_datatable, L1106-1183 *)
Definition generate (d : dinput) : res elem :=
  if dup_title [] (di_headers d) then Raise "CCPPDatatableError: Header already in dictionary"
  else
    schemes <- map_r (new_scheme_entry (di_headers d)) (di_calls d) ;;
    Ok (Elem (L "ccpp_datatable") [(L "version", L "1.0")] []
          [add_generated_files (di_host_files d) (di_suite_files d) (di_kinds d) (di_src d);
           Elem (L "schemes") [] [] schemes;
           Elem (L "api") [] [] [Elem (L "suites") [] []
             (map (fun s => Elem (L "suite") [(L "name", ds_name s); (L "filename", ds_file s)] [] (ds_groups s)) (di_suites d))];
           Elem (L "var_dictionaries") [] [] (di_dicts d);
           add_dependencies (di_scheme_deps d) (di_host_deps d)]).

(* ---- reading ---- *)
Definition t_tag (t : tree) : str := let '(Node g _ _ _) := t in g.
Definition t_attrs (t : tree) : list (str * str) := let '(Node _ a _ _) := t in a.
(* element.text: None when there is no text *)
Definition t_text (t : tree) : option str := let '(Node _ _ x _) := t in match x with [] => None | _ => Some x end.
Definition t_kids (t : tree) : list tree := let '(Node _ _ _ k) := t in map fst k.
(* element.find(tag), element.get(name) *)
Definition t_find (tag : str) (t : tree) : option tree := List.find (fun k => str_eqb (t_tag k) tag) (t_kids t).
Definition t_get (name : str) (t : tree) : option str :=
  match List.find (fun a => str_eqb (fst a) name) (t_attrs t) with Some a => Some (snd a) | None => None end.
(* _retrieve_ccpp_files, L253-290 *)
Definition section_files (s : tree) : res (list (option str)) :=
  map_r (fun e => if str_eqb (t_tag e) (L "file") then Ok (t_text e) else Raise "CCPPDatatableError: Invalid file list entry type") (t_kids s).
Definition retrieve_ccpp_files (t : tree) (file_type : option str) : res (list (option str)) :=
  match t_find (L "ccpp_files") t with
  | None => Raise "CCPPDatatableError: Element type not found"
  | Some f =>
      l <- map_r section_files
             (List.filter (fun s => match file_type with None => true | Some x => str_eqb (t_tag s) x end) (t_kids f)) ;;
      Ok (List.concat l)
  end.
Definition str_of_opt (o : option str) : str := match o with Some s => s | None => L "None" end.
(* _retrieve_process_list, L293-324 *)
Definition retrieve_process_list (t : tree) : res (list (option str)) :=
  match t_find (L "schemes") t with
  | None => Raise "CCPPDatatableError: Could not find schemes"
  | Some s => Ok (map Some (sorted (flat_map (fun e =>
                match t_get (L "process") e with
                | Some (c :: p) => [(c :: p) ++ L "=" ++ str_of_opt (t_get (L "name") e)]
                | _ => []
                end) (t_kids s))))
  end.
(* _retrieve_module_list, L327-359 *)
Definition retrieve_module_list (t : tree) : res (list (option str)) :=
  match t_find (L "schemes") t with
  | None => Raise "CCPPDatatableError: Could not find schemes"
  | Some s => Ok (map Some (sorted (s_union [] (flat_map (fun e => flat_map (fun p =>
                match t_get (L "module") p with Some m => [m] | None => [] end) (t_kids e)) (t_kids s)))))
  end.
(* _retrieve_dependencies, L362-397 *)
Definition retrieve_dependencies (t : tree) : res (list (option str)) :=
  match t_find (L "dependencies") t with
  | None => Raise "CCPPDatatableError: Could not find dependencies"
  | Some s => Ok (map Some (sorted (s_union [] (flat_map (fun e => match t_text e with Some x => [x] | None => [] end) (t_kids s)))))
  end.
(* _retrieve_suite_list, L447-473 *)
Definition retrieve_suite_list (t : tree) : res (list (option str)) :=
  Ok (match t_find (L "api") t with
      | None => []
      | Some a => match t_find (L "suites") a with None => [] | Some s => map (t_get (L "name")) (t_kids s) end
      end).
(* sep.join(result): a TypeError when an item is None *)
Fixpoint all_some (l : list (option str)) : res (list str) :=
  match l with [] => Ok [] | Some x :: t => r <- all_some t ;; Ok (x :: r) | None :: _ => Raise "TypeError" end.
(* datatable_report, L682-733, the queries of this file; sep is not empty *)
Definition datatable_report (t : tree) (action sep : str) : res str :=
  r <- (if str_eqb action (L "ccpp_files") then retrieve_ccpp_files t None
        else if str_eqb action (L "host_files") then retrieve_ccpp_files t (Some (L "host_files"))
        else if str_eqb action (L "suite_files") then retrieve_ccpp_files t (Some (L "suite_files"))
        else if str_eqb action (L "utility_files") then retrieve_ccpp_files t (Some (L "utilities"))
        else if str_eqb action (L "process_list") then retrieve_process_list t
        else if str_eqb action (L "module_list") then retrieve_module_list t
        else if str_eqb action (L "dependencies") then retrieve_dependencies t
        else if str_eqb action (L "suite_list") then retrieve_suite_list t
        else Ok []) ;;
  l <- all_some r ;; Ok (join sep l).
