(* NmModel.v: scripts/metadata_parser.py, read_new_metadata (L104-L250): the variables of one
   metadata table in the form ccpp_prebuild works with.
   Input: what parse_metadata_file returned.  That its result is saved for the next call
   (L110-L117) and that the file must exist (L106) are left out.  An exception is its class.  A scheme name is absent or not empty. *)
From Coq Require Import List Ascii String ZArith Bool.
From Verif Require Import PyStr ReqModel CommonModel ParModel ActModel ArModel.
Import ListNotations.
Open Scope nat_scope. Open Scope list_scope.

(* a variable of capgen's parser: its properties as get_prop_value returns them *)
Record raw := mkRaw { r_std : str; r_long : str; r_units : str; r_local : str; r_type : str; r_dims : list str; r_kind : str;
  r_intent : str; r_active : option str; r_optional : option bool; r_ddt : bool }.
Record section := mkSec { s_title : str; s_vars : list raw }.
(* a metadata table; no relative path is the empty text *)
Record header := mkHead { h_path : str; h_deps : list str; h_sections : list section }.
(* a variable of ccpp_prebuild, with the properties that ArModel.pvar leaves out *)
Record prevar := mkPre { pre_long : str; pre_units : str; pre_var : pvar }.

Definition endswith (e s : str) : bool := startswith (rev e) (rev s).
(* os.path.join(path, x), posix *)
Definition joined (path x : str) : str :=
  if startswith (L "/") x then x else if endswith (L "/") path then path ++ x else path ++ L "/" ++ x.
(* L141-L145, L154-L158 *)
Definition header_deps (h : header) : list str := match h_path h with [] => h_deps h | p => map (joined p) (h_deps h) end.
(* L133-L138, L152 *)
Definition container_of (module : str) (scheme : option str) (table title : str) : res str :=
  match scheme with
  | Some s => encode_container [module; s; table]
  | None => if str_eqb title module then encode_container [module] else encode_container [module; title]
  end.
(* L167-L180: standard names *)
Definition wrong_name (scheme : bool) (table std : str) : bool :=
  if str_eqb std (L "horizontal_loop_extent") && scheme && (endswith (L "_init") table || endswith (L "_finalize") table) then true
  else str_eqb std (L "horizontal_dimension") && scheme && endswith (L "_run") table.
(* L183-L201: dimensions *)
Definition wrong_dims (scheme : bool) (table : str) (dims : list str) : bool :=
  if scheme && (endswith (L "_init") table || endswith (L "_finalize") table) && mem (L "horizontal_loop_extent") dims then true
  else if scheme && endswith (L "_run") table && mem (L "horizontal_dimension") dims then true
  else negb scheme && mem (L "horizontal_dimension") dims.
(* L160-L245, one variable *)
Definition convert_var (scheme : bool) (table container : str) (r : raw) : res prevar :=
  if wrong_name scheme table (r_std r) then Raise "Exception"
  else if wrong_dims scheme table (r_dims r) then Raise "Exception"
  else
    a <- match r_active r with None => Raise "Exception" | Some a => match pre_active scheme a with Ok t => Ok t | Raise _ => Raise "Exception" end end ;;
    o <- match r_optional r with
         | None => Raise "Exception"
         | Some true => if scheme then Ok (L "T") else Raise "AttributeError"
         | Some false => Ok (L "F")
         end ;;
    Ok (mkPre (r_long r) (r_units r)
         (mkPV (r_std r) (r_local r) (lower (r_type r)) (if r_ddt r then [] else r_kind r) (r_dims r) (r_intent r) a o container)).
(* L160-L249: the variables of one section are added to metadata *)
Fixpoint add_vars (scheme : bool) (table container : str) (l : list raw) (md : list (str * prevar)) : res (list (str * prevar)) :=
  match l with
  | [] => Ok md
  | r :: rest =>
      v <- convert_var scheme table container r ;;
      if mem (r_std r) (map fst md) then Raise "Exception"
      else add_vars scheme table container rest (md ++ [(r_std r, v)])
  end.
Fixpoint add_sections (module : str) (scheme : option str) (table : str) (h : header) (l : list section) (st : list (str * prevar) * list str) : res (list (str * prevar) * list str) :=
  match l with
  | [] => Ok st
  | s :: rest =>
      if negb (str_eqb (s_title s) table) then add_sections module scheme table h rest st
      else
        c <- container_of module scheme table (s_title s) ;;
        md <- add_vars (match scheme with Some _ => true | None => false end) table c (s_vars s) (fst st) ;;
        add_sections module scheme table h rest (md, snd st ++ header_deps h)
  end.
(* L119-L250 *)
Fixpoint read_headers (module : str) (scheme : option str) (table : str) (l : list header) (st : list (str * prevar) * list str) : res (list (str * prevar) * list str) :=
  match l with
  | [] => Ok st
  | h :: rest => st <- add_sections module scheme table h (h_sections h) st ;; read_headers module scheme table rest st
  end.
Definition read_new_metadata (headers : list header) (module table : str) (scheme : option str) : res (list (str * prevar) * list str) :=
  read_headers module scheme table headers ([], []).
