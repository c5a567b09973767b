(* HdrModel.v: scripts/ccpp_capgen.py: comparing the metadata of a file with its Fortran
   source (L139-433), reading the files (L470-578), finding the Fortran file (L97-118) and
   the clean option (L53-95, L581-592).  The metadata and Fortran headers are given as
   parsed; of a comparison only which errors are found is modelled, not the messages. *)
From Verif Require Import PyStr ReqModel DictModel.
From Coq Require Import Lia.
Open Scope nat_scope.
Open Scope list_scope.

(* the properties of a Var (metavar.py) that are compared.  h_dims is get_dimensions(): None
   for an invalid dimensions property *)
Record hvar := mkH { h_local : str; h_std : str; h_type : str; h_kind : option str; h_intent : option str; h_opt : bool; h_dims : option (list str) }.
(* MetadataSection: title, header_type, variable_list() *)
Record header := mkHd { hd_title : str; hd_type : str; hd_vars : list hvar }.
Inductive err := EMissing | EOptF | EOptM | ENoFortran | EMismatch | EOrder | EName | EType | EKind | EIntent | ERank | EDim.

(* is_arrayspec L150-154 *)
Definition is_arrayspec (s : str) : bool := existsb (fun c => Ascii.eqb c "(") s.
(* find_var_in_list L157-178; None is (None, -1) *)
Fixpoint find_var (name : str) (l : list hvar) (i : nat) : option (hvar * nat) :=
  match l with
  | [] => None
  | v :: r => if str_eqb (lower (h_local v)) (lower name) then Some (v, i) else find_var name r (S i)
  end.
(* var_comp L181-203 for a string or None *)
Definition comp_str (a b : str) : bool := str_eqb (lower a) (lower b).
Definition comp_opt (a b : option str) : bool :=
  match a, b with Some x, Some y => comp_str x y | None, None => true | _, _ => false end.
Definition one_err (b : bool) (e : err) : list err := if b then [] else [e].

(* convert_dims_to_standard_names, metadata_table.py L1044-1126, with a logger: the message
   for an unknown element uses the unbound variable ctx.  CCPP_CONSTANT_VARS has one
   variable, ccpp_constant_one with local name 1 (metavar.py L2109) *)
Definition conv_item (mh : header) (item : str) : res str :=
  match py_int item with
  | Some _ => Ok (if str_eqb (lower item) (L "1") then L "ccpp_constant_one" else item)
  | None => match item with
            | [] => Ok []
            | _ => match find_var item (hd_vars mh) 0 with
                   | Some (v, _) => Ok (h_std v)
                   | None => Raise "UnboundLocalError"
                   end
            end
  end.
Fixpoint map_res {A B} (f : A -> res B) (l : list A) : res (list B) :=
  match l with [] => Ok [] | x :: r => y <- f x ;; ys <- map_res f r ;; Ok (y :: ys) end.
Definition conv_dim (mh : header) (d : str) : res str :=
  items <- map_res (conv_item mh) (split_on ":" d) ;;
  Ok (join (L ":") (if existsb (fun c => Ascii.eqb c ":") d then items else L "ccpp_constant_one" :: items)).
Definition convert_dims (mh : header) (v : hvar) : res (list str) :=
  match h_dims v with None => Raise "CCPPError" | Some l => map_res (conv_dim mh) l end.
(* L222-228: blanks around the parts of a range *)
Definition norm_dim (d : str) : str :=
  lower (if existsb (fun c => Ascii.eqb c ":") d then join (L ":") (map strip (split_on ":" d)) else d).
(* L231-242; the test at L236 is "fdim in (':', fdim)" *)
Fixpoint dim_errs (md fd : list str) : list err :=
  match md, fd with
  | m :: ms, f :: fs =>
      let mdim := norm_dim m in
      let fdim := norm_dim (strip f) in
      one_err (str_eqb fdim (L ":") || str_eqb fdim fdim) EDim ++ dim_errs ms fs
  | _, _ => []
  end.
(* dims_comp L206-246 *)
Definition dims_comp (mh : header) (m f : hvar) : res (list err) :=
  fd <- convert_dims mh f ;;
  match h_dims m with
  | None => Raise "TypeError"
  | Some md => Ok (if Nat.eqb (length md) (length fd) then dim_errs md fd else [ERank])
  end.

(* one metadata variable, the loop body of compare_fheader_to_mheader L313-387 *)
Definition comp_var (mh : header) (fht : str) (flist : list hvar) (flen i : nat) (m : hvar) : res (list err) :=
  let arr := is_arrayspec (h_local m) in
  let fv := find_var (h_local m) flist 0 in
  e1 <- (if (match fv with Some (_, 0) => false | _ => true end) && h_opt m
         then match fv with None => Raise "AttributeError" | Some (f, _) => Ok (one_err (h_opt f) EOptF) end
         else Ok []) ;;
  let e2 := match fv with Some (f, _) => one_err (negb (h_opt f && negb (h_opt m))) EOptM | None => [] end in
  let e := e1 ++ e2 in
  if flen <=? i then Ok (e ++ (if arr then [] else match fv with None => [ENoFortran] | _ => [] end))
  else if negb arr && (match fv with None => true | _ => false end) then Ok (e ++ [EMismatch])
  else if str_eqb fht (L "scheme") && negb (match fv with Some (_, j) => Nat.eqb j i | None => false end) then Ok (e ++ [EOrder])
  else if arr then Ok e
  else match fv with
       | None => Raise "AttributeError"
       | Some (f, _) =>
           if negb (comp_str (h_local m) (h_local f)) then Ok (e ++ [EName]) else
           d <- dims_comp mh m f ;;
           Ok (e ++ one_err (comp_str (h_type m) (h_type f)) EType ++ one_err (comp_opt (h_kind m) (h_kind f)) EKind ++
               (if str_eqb (hd_type mh) (L "scheme") then one_err (comp_opt (h_intent m) (h_intent f)) EIntent else []) ++ d)
       end.
Fixpoint comp_vars (mh : header) (fht : str) (flist : list hvar) (flen i : nat) (ms : list hvar) : res (list err) :=
  match ms with
  | [] => Ok []
  | m :: r => e <- comp_var mh fht flist flen i m ;; es <- comp_vars mh fht flist flen (S i) r ;; Ok (e ++ es)
  end.
(* _EXTRA_VARIABLE_TABLE_TYPES L43 *)
Definition extra_type (t : str) : bool := mem t (map L ["module"; "host"; "ddt"]%string).
(* L270-311: the numbers of variables; flen after the optional variables that are not in the
   metadata are taken off *)
Definition count {A} (f : A -> bool) (l : list A) : nat := length (List.filter f l).
Definition mlen (mh : header) : nat := count (fun v => negb (is_arrayspec (h_local v))) (hd_vars mh).
Definition flen (mh fh : header) : nat :=
  let n := length (hd_vars fh) in
  if mlen mh <? n
  then n - count (fun f => match find_var (h_local f) (hd_vars mh) 0 with None => h_opt f | Some _ => false end) (hd_vars fh)
  else n.
(* compare_fheader_to_mheader L249-390 *)
Definition compare_headers (mh fh : header) : res (list err) :=
  if negb (str_eqb (hd_type mh) (hd_type fh)) then
    if negb (str_eqb (hd_type mh) (L "host")) || negb (mem (hd_type fh) (map L ["module"; "scheme"]%string))
    then Raise "CCPPError" else Ok []
  else
    let a := mlen mh in
    let b := flen mh fh in
    let okn := Nat.eqb a b || (extra_type (hd_type fh) && (a <? b)) in
    es <- comp_vars mh (hd_type fh) (hd_vars fh) b 0 (hd_vars mh) ;;
    Ok (one_err okn EMissing ++ es).

(* ---- check_fortran_against_metadata L393-450 ---- *)
Fixpoint pop_title (t : str) (l : list header) : option (header * list header) :=
  match l with
  | [] => None
  | h :: r => if str_eqb (hd_title h) t then Some (h, r)
              else match pop_title t r with Some (x, r') => Some (x, h :: r') | None => None end
  end.
Fixpoint associate (ms fs : list header) : res (list (header * header) * list header) :=
  match ms with
  | [] => Ok ([], fs)
  | m :: r => match pop_title (hd_title m) fs with
              | None => Raise "CCPPError"
              | Some (f, fs') => p <- associate r fs' ;; Ok ((m, f) :: fst p, snd p)
              end
  end.
Definition check_file (ms fs : list header) : res unit :=
  p <- associate ms fs ;;
  if existsb (fun h => match hd_vars h with [] => false | _ => true end) (snd p) then Raise "CCPPError" else
  es <- map_res (fun q => compare_headers (fst q) (snd q)) (fst p) ;;
  match List.concat es with [] => Ok tt | _ => Raise "CCPPError" end.

(* ---- parse_scheme_files / parse_host_model_files L470-578 ----
   one file: its tables (name and headers) and the headers of its Fortran source.
   The call of duplicate_item_error looks up table_dict[header.title]: header is the last
   header of the file before; unbound in the first *)
Record pfile := mkPF { pf_tables : list (str * list header); pf_fort : list header }.
Definition mheaders (f : pfile) : list header := flat_map snd (pf_tables f).
Fixpoint add_tables (last : option str) (ts : list (str * list header)) (d : list str) : res (list str) :=
  match ts with
  | [] => Ok d
  | (n, _) :: r =>
      if mem n d
      then match last with
           | None => Raise "UnboundLocalError"
           | Some t => if mem t d then Raise "CCPPError" else Raise "KeyError"
           end
      else add_tables last r (d ++ [n])
  end.
Fixpoint add_headers (hs : list header) (d : list header) : res (list header) :=
  match hs with
  | [] => Ok d
  | h :: r => if existsb (fun x => str_eqb (hd_title x) (hd_title h)) d then Raise "CCPPError" else add_headers r (d ++ [h])
  end.
Fixpoint read_files (fs : list pfile) (last : option str) (td : list str) (hd : list header) : res (list str * list header) :=
  match fs with
  | [] => Ok (td, hd)
  | f :: r =>
      _ <- check_file (mheaders f) (pf_fort f) ;;
      td' <- add_tables last (pf_tables f) td ;;
      hd' <- add_headers (mheaders f) hd ;;
      read_files r (match rev (mheaders f) with h :: _ => Some (hd_title h) | [] => last end) td' hd'
  end.

(* ---- find_associated_fortran_file L97-118; exists is os.path.exists ---- *)
Fixpoint rfind_dot (s : str) (i : nat) (found : option nat) : option nat :=
  match s with [] => found | c :: t => rfind_dot t (S i) (if Ascii.eqb c "." then Some i else found) end.
Definition extensions : list str := map L ["F90"; "f90"; "F"; "f"]%string.
Definition find_fortran (exists_ : str -> bool) (name : str) : res str :=
  let base := match rfind_dot name 0 None with None => name ++ L "." | Some i => firstn (i + 1) name end in
  match List.find (fun e => exists_ (base ++ e)) extensions with Some e => Ok (base ++ e) | None => Raise "CCPPError" end.

(* ---- clean L53-95, L581-592: the file system is a set of absolute path names ---- *)
(* os.path.normpath of an absolute path, on its parts between slashes *)
Definition norm_step (acc : list str) (c : str) : list str :=
  match c with
  | [] => acc
  | _ => if str_eqb c (L ".") then acc
         else if str_eqb c (L "..") then match acc with [] => [] | _ :: a => a end
         else c :: acc
  end.
Definition normpath (p : str) : str := L "/" ++ join (L "/") (rev (fold_left norm_step (split_on "/" p) [])).
Definition isabs (p : str) : bool := startswith (L "/") p.
(* L63-82; root is the directory of the file, an absolute path *)
Definition clean_path (root : str) (line : str) : option str :=
  let p := strip line in
  match p with
  | [] => None
  | c :: _ => if Ascii.eqb c "#" || Ascii.eqb c "!" then None
              else Some (if isabs p then p else normpath (root ++ L "/" ++ p))
  end.
Definition remove (p : str) (fs : list str) : list str := List.filter (fun q => negb (str_eqb q p)) fs.
Definition clean_files (root capfile : str) (lines : list str) (fs : list str) : list str :=
  remove capfile (fold_left (fun fs l => match clean_path root l with Some p => remove p fs | None => fs end) lines fs).
