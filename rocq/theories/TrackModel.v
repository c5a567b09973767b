(* TrackModel.v: scripts/mkstatic.py, Suite.parse (L683-765) as far as the call tree is
   concerned, and scripts/ccpp_track_variables.py, create_metadata_filename_dict (L66-83) and
   create_var_graph (L86-162).
   Simplified: the parsed XML and the parsed metadata files are given as records; a file is
   its scheme names (find_scheme_names) and its tables; glob returns some list of files; the
   partial matches, which are only printed, are left out, and so are log messages, the check
   of the suite name against the file name and its length, and the list of all schemes. *)
From Verif Require Import PyStr DictModel ReqModel.
Open Scope nat_scope.
Open Scope list_scope.

(* <subcycle loop="n"> with the texts of its sub-elements *)
Record subcyc := mkSC { sc_loop : option str; sc_schemes : list str }.
(* a child of <suite>: lower-case tag, name attribute, sub-elements *)
Record gelem := mkGE { ge_tag : str; ge_name : option str; ge_sub : list subcyc }.
Definition tree := list (str * list str).

(* int(subcycle_xml.get('loop')) *)
Definition loop_count (sc : subcyc) : res Z :=
  match sc_loop sc with
  | None => Raise "TypeError"
  | Some s => match py_int s with Some n => Ok n | None => Raise "ValueError" end
  end.
(* one subcycle, L740-756.  [bound]: the variable loop has been assigned before, in this
   group or an earlier one; it is assigned inside the loop over the schemes (L745) and read
   after it (L749), and the for statement of L753 assigns it if its range is not empty. *)
Definition parse_subcycle (bound : bool) (sc : subcyc) : res (bool * list str) :=
  bound <- (if nonempty (sc_schemes sc) then _ <- loop_count sc ;; Ok true else Ok bound) ;;
  if negb bound then Raise "UnboundLocalError"
  else n <- loop_count sc ;; Ok (true, List.concat (List.repeat (sc_schemes sc) (Z.to_nat n))).
Fixpoint parse_subcycles (bound : bool) (scs : list subcyc) (acc : list str) : res (bool * list str) :=
  match scs with
  | [] => Ok (bound, acc)
  | sc :: r => p <- parse_subcycle bound sc ;; parse_subcycles (fst p) r (acc ++ snd p)
  end.
(* L724-758 *)
Fixpoint parse_groups (bound : bool) (gs : list gelem) (ct : tree) : res tree :=
  match gs with
  | [] => Ok ct
  | g :: r =>
      match ge_name g with
      | None => Raise "KeyError"
      | Some n =>
          if str_eqb (ge_tag g) (L "init") || str_eqb (ge_tag g) (L "finalize")
          then parse_groups bound r (set n [] ct)
          else p <- parse_subcycles bound (ge_sub g) [] ;;
               parse_groups (fst p) r (set n (snd p) ct)
      end
  end.
Definition call_tree (gs : list gelem) : res tree := parse_groups false gs [].

(* metadata: a section (ccpp-arg-table) is its title and its variables, standard name and
   intent; a table its name and sections *)
Record section := mkSec { se_title : str; se_vars : list (str * str) }.
Record mtable := mkMT { mt_name : str; mt_sections : list section }.
Record mfile := mkMF { mf_schemes : list str; mf_tables : list mtable }.
(* create_metadata_filename_dict, L66-83 *)
Definition filename_dict (files : list mfile) : res (list (str * mfile)) :=
  match files with
  | [] => Raise "Exception"
  | _ => Ok (fold_left (fun d f => fold_left (fun d s => set s f d) (mf_schemes f) d) files [])
  end.
(* L125-148: one section *)
Fixpoint find_intent (var : str) (vars : list (str * str)) : option str :=
  match vars with
  | [] => None
  | (n, i) :: r => if str_eqb var n then Some i else find_intent var r
  end.
Definition section_entry (var : str) (s : section) : list (str * str) :=
  match find_intent var (se_vars s) with Some i => [(se_title s, i)] | None => [] end.
(* L118-148: the file of one scheme *)
Definition scheme_entries (var scheme : str) (f : mfile) : list (str * str) :=
  flat_map (fun t => if str_eqb (mt_name t) scheme then flat_map (section_entry var) (mt_sections t) else [])
           (mf_tables f).
Fixpoint group_entries (d : list (str * mfile)) (var : str) (schemes : list str) : res (list (str * str)) :=
  match schemes with
  | [] => Ok []
  | s :: r =>
      match get s d with
      | None => Raise "Exception"
      | Some f => es <- group_entries d var r ;; Ok (scheme_entries var s f ++ es)
      end
  end.
Fixpoint graph (d : list (str * mfile)) (var : str) (ct : tree) : res (list (str * list (str * str))) :=
  match ct with
  | [] => Ok []
  | (g, schemes) :: r =>
      es <- group_entries d var schemes ;; rest <- graph d var r ;; Ok ((g, es) :: rest)
  end.
(* create_var_graph, L86-162 *)
Definition create_var_graph (files : list mfile) (var : str) (ct : tree) : res (bool * list (str * list (str * str))) :=
  d <- filename_dict files ;; g <- graph d var ct ;;
  Ok (existsb (fun e => nonempty (snd e)) g, g).
