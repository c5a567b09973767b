(* FileModel.v: model of scripts/file_utils.py (move_modified_files,
   create_file_list and their helpers). *)
From Verif Require Import PyStr.
Open Scope nat_scope.
Open Scope list_scope.

(* ------------------------------------------------------------------ *)
(* move_modified_files, L265-306.
   A path below src_dir or dest_dir is the list of its components; a directory
   tree is a partial map from paths to contents.  [walk] is what os.walk yields:
   every file path of src_dir, in some order.  [has_dir p] says that the directory
   of dest_dir that is to contain p exists.  os.path.normpath equality of the two
   directories is the boolean [same].  The modification of dest is recorded in
   [written] (every path os.replace wrote).  Simplifications: contents are
   character lists; permissions and directories inside src_dir are not modelled
   apart from [src_present]. *)
Definition path := list str.
Definition tree := path -> option str.

Fixpoint path_eqb (a b : path) : bool :=
  match a, b with
  | [], [] => true
  | x :: a', y :: b' => str_eqb x y && path_eqb a' b'
  | _, _ => false
  end.
Definition put_file (t : tree) (p : path) (c : option str) : tree :=
  fun q => if path_eqb p q then c else t q.

Record mstate := mkMS { src : tree; dest : tree; written : list path; src_present : bool }.

Definition basename (p : path) : str := last p [].

(* L273-284: two files of the same name are refused before anything is moved *)
Fixpoint dup_basename (seen : list str) (walk : list path) : bool :=
  match walk with
  | [] => false
  | p :: r => existsb (str_eqb (basename p)) seen || dup_basename (basename p :: seen) r
  end.

Definition content_eqb (a b : option str) : bool :=
  match a, b with Some x, Some y => str_eqb x y | _, _ => false end.

(* L285-302, one file.  filecmp.cmp(shallow=False) compares contents. *)
Definition move_one (overwrite : bool) (has_dir : path -> bool) (s : mstate) (p : path) : res mstate :=
  let fmove :=
    match dest s p with
    | Some _ => if overwrite then true else content_eqb (src s p) (dest s p)
    | None => true
    end in
  if fmove then
    if has_dir p then Ok (mkMS (put_file (src s) p None) (put_file (dest s) p (src s p)) (written s ++ [p]) (src_present s))
    else Raise "FileNotFoundError"
  else Ok (mkMS (put_file (src s) p None) (dest s) (written s) (src_present s)).

Fixpoint move_all (overwrite : bool) (has_dir : path -> bool) (s : mstate) (l : list path) : res mstate :=
  match l with
  | [] => Ok s
  | p :: r => s' <- move_one overwrite has_dir s p ;; move_all overwrite has_dir s' r
  end.

(* L265-306; remove_dir(force=True) L236-261 deletes what is left of src_dir *)
Definition move_modified_files (overwrite remove_src same : bool) (has_dir : path -> bool)
    (walk : list path) (s : mstate) : res mstate :=
  if same then Ok s
  else if dup_basename [] walk then Raise "CCPPError: Duplicate CCPP file found"
  else s' <- move_all overwrite has_dir s walk ;;
       Ok (if remove_src then mkMS (fun _ => None) (dest s') (written s') false else s').

(* ------------------------------------------------------------------ *)
(* create_file_list, L179-214, and _create_file_list_int, L109-176.
   The file system is a record of what the os and glob calls return. *)
Record fsys := mkFS {
  fs_isdir : str -> bool;
  fs_readable : str -> bool;                (* os.access(file, os.R_OK) *)
  fs_exists : str -> bool;                  (* os.path.exists *)
  fs_glob : str -> list str;                (* glob.glob(pattern) *)
  fs_lines : str -> list str;               (* readlines of a text file *)
  fs_resolve : str -> str -> str;           (* normpath(join(root, name)) *)
  fs_dirname : str -> str }.                (* dirname(file) *)

(* L25-41 check_for_existing_file: number of errors (0 or 1) *)
Definition check_existing (F : fsys) (f : str) : nat :=
  if fs_exists F f then if fs_readable F f then 0 else 1 else 1.

(* L56-75 add_unique_files on the expanded names; errors are names *)
Fixpoint add_unique (F : fsys) (files master errs : list str) : list str * list str :=
  match files with
  | [] => (master, errs)
  | f :: r =>
      if 0 <? check_existing F f then add_unique F r master (errs ++ [f])
      else if existsb (str_eqb f) master then add_unique F r master errs
      else add_unique F r (master ++ [f]) errs
  end.

(* os.path.splitext(name)[1] without its dot, L129-132: the text after the last
   dot of the last path component, leading dots of which do not count *)
Fixpoint after_last (sep : ascii) (s : str) (acc : option str) : option str :=
  match s with
  | [] => acc
  | c :: t => after_last sep t (if Ascii.eqb c sep then Some t else acc)
  end.
Definition suffix_of (name : str) : str :=
  let base := match after_last "/" name None with Some b => b | None => name end in
  match after_last "." (dropwhile (fun c => Ascii.eqb c ".") base) None with
  | Some e => e
  | None => []
  end.
Definition isabs (name : str) : bool := match name with c :: _ => Ascii.eqb c "/" | [] => false end.

(* L78-106 read_pathnames_from_file: blank and comment lines are skipped, other
   lines made absolute.  (file errors, existing file: see [check_existing]) *)
Definition read_pathnames (F : fsys) (file : str) : list str * list str :=
  if 0 <? check_existing F file then ([], [file])
  else
    (flat_map (fun line =>
        match strip line with
        | [] => []
        | c :: t => if Ascii.eqb c "#" || Ascii.eqb c "!" then []
                    else [if isabs (c :: t) then c :: t else fs_resolve F (fs_dirname F file) (c :: t)]
        end) (fs_lines F file), []).

(* accumulated state: master_list, txt_files, errors *)
Record acc := mkAcc { a_master : list str; a_txt : list str; a_errs : list str }.

(* the loop of L126-174 for one list of names; [rec] is the recursive call on the
   names of one text file *)
Definition glob_suffix (dir suff : str) : str := dir ++ L "/*." ++ suff.

Section Loop.
Variable F : fsys.
Variable suffices : list str.
Variable rec : list str -> str -> acc -> option acc.

(* L151-169: the text files matching one pattern *)
Fixpoint do_txt (tfiles : list str) (a : acc) : option acc :=
  match tfiles with
  | [] => Some a
  | f :: r =>
      if existsb (str_eqb f) (a_txt a) then do_txt r a
      else
        let '(flist, errs) := read_pathnames F f in
        match rec flist (fs_dirname F f) (mkAcc (a_master a) (a_txt a ++ [f]) (a_errs a ++ errs)) with
        | Some a' => do_txt r a'
        | None => None
        end
  end.

Definition do_name (name root : str) (a : acc) : option acc :=
  let suff := suffix_of name in
  let file := if isabs name then name else fs_resolve F root name in
  if fs_isdir F file then
    Some (fold_left (fun a s =>
       let '(m, e) := add_unique F (fs_glob F (glob_suffix file s)) (a_master a) (a_errs a) in
       mkAcc m (a_txt a) e) suffices a)
  else if existsb (str_eqb suff) suffices then
    let '(m, e) := add_unique F (fs_glob F file) (a_master a) (a_errs a) in
    Some (mkAcc m (a_txt a) e)
  else if str_eqb suff (L "txt") then
    match fs_glob F file with
    | [] => Some (mkAcc (a_master a) (a_txt a) (a_errs a ++ [file]))
    | tfiles => do_txt tfiles a
    end
  else Some a.                                    (* only a warning *)

Fixpoint do_names (names : list str) (root : str) (a : acc) : option acc :=
  match names with
  | [] => Some a
  | n :: r => match do_name n root a with Some a' => do_names r root a' | None => None end
  end.
End Loop.

(* _create_file_list_int; the fuel is the recursion depth (None: exhausted) *)
Fixpoint file_list_int (fuel : nat) (F : fsys) (suffices names : list str) (root : str) (a : acc) : option acc :=
  match fuel with
  | O => None
  | S n => do_names F suffices (fun names root a => file_list_int n F suffices names root a) names root a
  end.

(* L179-214 create_file_list *)
Definition create_file_list (fuel : nat) (F : fsys) (suffices files : list str) (root : str) : option (res (list str)) :=
  match file_list_int fuel F suffices files root (mkAcc [] [] []) with
  | None => None
  | Some a => Some (match a_errs a with [] => Ok (a_master a) | _ => Raise "CCPPError" end)
  end.
(* a comma-separated string of names, L195-196 *)
Definition names_of_string (s : str) : list str :=
  List.filter (fun x => negb (str_eqb x [])) (map strip (split_on "," s)).
