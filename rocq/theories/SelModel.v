(* SelModel.v: what ccpp_prebuild.py selects: reading a suite definition file
   (scripts/mkstatic.py Suite.parse L683-765), the schemes, variables and files of the
   suites (scripts/ccpp_prebuild.py check_schemes_in_suites L356-367, filter_metadata
   L369-415, generate_list_of_schemes_and_dependencies_to_compile L419-430,
   generate_typedefs_makefile L581-617).  The parsed XML is given; sets are lists without
   repetition in some order. *)
From Verif Require Import PyStr ReqModel StaticModel CommonModel DictModel PreModel.
From Coq Require Import Lia.
Open Scope nat_scope.
Open Scope list_scope.

(* ---- str.replace ---- *)
Fixpoint rep (p r s : str) (skip : nat) : str :=
  match s with
  | [] => []
  | c :: t => match skip with
              | S k => rep p r t k
              | 0 => if startswith p s then r ++ rep p r t (length p - 1) else c :: rep p r t 0
              end
  end.
Definition replace (p r s : str) : str := rep p r s 0.

(* ---- Suite.parse ---- *)
(* a child of <suite>: its lower-case tag, name attribute, text, and for groups the
   sub-elements: the loop attribute and the texts of their sub-elements *)
Record elem := mkE { e_tag : str; e_name : option str; e_text : option str; e_subs : list (option str * list (option str)) }.
Record psuite := mkPS { ps_name : str; ps_groups : list group; ps_schemes : list str; ps_subs : list str }.
(* CCPP_STAGES of common.py L15-20: the short names *)
Definition stage_short (s : stage) : str :=
  match s with TsInit => L "tsinit" | TsFinal => L "tsfinal" | Init => L "init" | Run => L "run" | Final => L "final" end.
(* int(subcycle_xml.get('loop')) *)
Definition int_attr (a : option str) : res Z :=
  match a with None => Raise "TypeError" | Some s => match py_int s with Some n => Ok n | None => Raise "ValueError" end end.
(* the schemes of one subcycle, L741-748 *)
Fixpoint sub_schemes (a : option str) (ts : list (option str)) (loop : option Z) : res (option Z * list str) :=
  match ts with
  | [] => Ok (loop, [])
  | None :: _ => _ <- int_attr a ;; Raise "TypeError"
  | Some t :: r => n <- int_attr a ;; p <- sub_schemes a r (Some n) ;; Ok (fst p, t :: snd p)
  end.
(* L739-749: loop keeps its value from one subcycle to the next *)
Fixpoint subcycles (l : list (option str * list (option str))) (loop : option Z) : res (option Z * list subcycle) :=
  match l with
  | [] => Ok (loop, [])
  | (a, ts) :: r =>
      p <- sub_schemes a ts loop ;;
      match fst p with
      | None => Raise "UnboundLocalError"
      | Some n => q <- subcycles r (Some n) ;; Ok (fst q, mkSub n (snd p) :: snd q)
      end
  end.
(* L722-758; the call tree is not built here (see TrackModel.v) *)
Fixpoint groups (l : list elem) (loop : option Z) : res (list group * list str * list str) :=
  match l with
  | [] => Ok ([], [], [])
  | e :: r =>
      match e_name e with
      | None => Raise "KeyError"
      | Some n =>
          if str_eqb (e_tag e) (L "init") || str_eqb (e_tag e) (L "finalize")
          then match e_text e with
               | None => Raise "TypeError"
               | Some t =>
                   q <- groups r loop ;;
                   let '(gs, sc, su) := q in
                   Ok (mkGroup (e_tag e) (if str_eqb (e_tag e) (L "init") then GInit else GFinalize) [mkSub 1 [t]] :: gs,
                       t :: sc, (t ++ L "_" ++ e_tag e) :: su)
               end
          else p <- subcycles (e_subs e) loop ;;
               q <- groups r (fst p) ;;
               let '(gs, sc, su) := q in
               let schemes := flat_map sc_schemes (snd p) in
               Ok (mkGroup n GRegular (snd p) :: gs, schemes ++ sc,
                   flat_map (fun t => map (fun s => t ++ L "_" ++ stage_short s) stages) schemes ++ su)
      end
  end.
(* L683-765: None is success = False; sdf is the base name of the file *)
Definition suite_parse (sdf : str) (name : option str) (l : list elem) : res (option psuite) :=
  let shown := match name with Some n => n | None => L "None" end in
  if negb (str_eqb sdf (shown ++ L ".xml")) && negb (str_eqb sdf (L "suite_" ++ shown ++ L ".xml")) then Ok None else
  match name with
  | None => Raise "TypeError"
  | Some n =>
      if 37 <? length n then Ok None else      (* SUITE_NAME_MAX_CHARS, L31 *)
      q <- groups l None ;;
      let '(gs, sc, su) := q in
      Ok (Some (mkPS n gs (dedup sc) (dedup su)))
  end.

(* ---- check_schemes_in_suites L356-367 ---- *)
Definition check_schemes (args : list str) (suites : list psuite) : bool :=
  forallb (fun u => forallb (fun g => forallb (fun c => forallb (fun n => mem n args) (sc_schemes c)) (g_subs g)) (ps_groups u)) suites.

(* ---- filter_metadata L369-415 ---- *)
Fixpoint find_sub (p s : str) (i : nat) : option nat :=
  if startswith p s then Some i else match s with [] => None | _ :: t => find_sub p t (S i) end.
(* container_string.find('SUBROUTINE')+len('SUBROUTINE')+1; -1 if it is not there *)
Definition subroutine_of (cont : str) : res str :=
  c <- decode_container cont ;;
  let start := match find_sub (L "SUBROUTINE") c 0 with Some i => i + 11 | None => 10 end in
  Ok (skipn start c).
(* L387-388, in the order of the dictionary *)
Definition abbreviate (s : str) : str := fold_left (fun s st => replace (stage_name st) (stage_short st) s) stages s.
Fixpoint keep_var (vars : list pvar) (suites : list psuite) : res bool :=
  match vars with
  | [] => Ok false
  | v :: r => s <- subroutine_of (p_cont v) ;;
              if existsb (fun u => mem (abbreviate s) (ps_subs u)) suites then Ok true else keep_var r suites
  end.
Fixpoint filter_vars (m : meta) (suites : list psuite) (ks : list str) : res meta :=
  match ks with
  | [] => Ok []
  | k :: r => match get k m with
              | None => Raise "KeyError"
              | Some l => b <- keep_var l suites ;; out <- filter_vars m suites r ;; Ok (if b then (k, l) :: out else out)
              end
  end.
Definition filter_metadata (m : meta) (suites : list psuite) : res meta := filter_vars m suites (sorted (map fst m)).
(* L398-414: the same filter for the dictionaries keyed by scheme *)
Definition filter_schemes {A} (d : list (str * A)) (suites : list psuite) : list (str * A) :=
  List.filter (fun p => existsb (fun u => mem (fst p) (ps_schemes u)) suites) d.

(* ---- L419-430 ---- *)
Definition to_compile (schemes_in_files : list (str * str)) (deps1 deps2 : list (str * list str)) : list str :=
  dedup (map snd schemes_in_files ++ flat_map snd deps1 ++ flat_map snd deps2).

(* ---- generate_typedefs_makefile L581-617: the list of modules ---- *)
Definition standard_types : list str := map L ["character"; "integer"; "logical"; "real"]%string.
Definition is_typedef (v : pvar) : bool :=
  negb (mem (p_type v) standard_types) && negb (str_eqb (p_type v) (L "ccpp_t")) && str_eqb (p_type v) (p_std v).
Definition is_kinddef (v : pvar) : bool :=
  startswith (L "kind_") (p_std v) && str_eqb (p_type v) (L "integer") && str_eqb (p_units v) (L "none").
Fixpoint typedefs (d : list pvar) (acc : list str) (ok : bool) : res (bool * list str) :=
  match d with
  | [] => Ok (ok, acc)
  | v :: r =>
      if is_typedef v || is_kinddef v
      then c <- decode_container_as_dict (p_cont v) ;;
           match get (L "MODULE") c with
           | None => typedefs r acc false
           | Some m => let f := lower (m ++ L ".mod") in
                       typedefs r (if mem f acc then acc else acc ++ [f]) ok
           end
      else typedefs r acc ok
  end.
(* ---- collect_physics_subroutines L329-353: schemes_in_files; a file with the schemes of
   its argument tables ---- *)
Definition in_files (files : list (str * list str)) : list (str * str) :=
  fold_left (fun d p => fold_left (fun d t => set t (fst p) d) (snd p) d) files [].
