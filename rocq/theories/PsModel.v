(* PsModel.v: scripts/metadata_parser.py, parse_scheme_tables (L508-L769): which subroutines of a
   scheme's Fortran file ccpp_prebuild finds, and the metadata table of each.
   Input: the lines of the file (without the line ends) and the metadata headers of the .meta file
   next to it, as read_new_metadata gets them (NmModel).  Output: the argument lists.
   Left out: the metadata dictionary (its merging across tables is PreModel.collect), the
   dependencies, messages.  An exception is its class. *)
From Coq Require Import List Ascii String ZArith Bool.
From Verif Require Import PyStr ReqModel CompatModel ParModel ActModel NmModel.
Import ListNotations.
Open Scope nat_scope. Open Scope list_scope.

(* str.split() *)
Definition words (s : str) : list str := words_of [] s.
(* L541-L545: s.replace('&', ' ') *)
Definition amp_blank (s : str) : str := map (fun c => if Ascii.eqb c "&" then " "%char else c) s.
(* L533-L549: blank lines go, a line that ends with & is continued; text left over at the end is lost *)
Fixpoint join_lines (buffer : str) (file : list str) : list str :=
  match file with
  | [] => []
  | l :: rest =>
      let s := strip l in
      if str_eqb s [] || str_eqb s (L "&") then join_lines buffer rest
      else if endswith (L "&") s then join_lines (buffer ++ amp_blank l) rest
      else (buffer ++ amp_blank l) :: join_lines [] rest
  end.
(* L556-L558, L588-L590: the line without a trailing comment, then its words *)
Definition code (l : str) : list str :=
  words (if has_char "!" l && negb (startswith (L "!") l) then takewhile (fun c => negb (Ascii.eqb c "!")) l else l).

(* L553-L577: modules with their first and last line; cur is the Python variable module_name *)
Record module := mkMod { m_name : str; m_start : nat; m_end : option nat }.
Definition set_end (name : str) (k : nat) (l : list module) : list module :=
  map (fun m => if str_eqb (m_name m) name then mkMod (m_name m) (m_start m) (Some k) else m) l.
Fixpoint find_modules (lines : list str) (k : nat) (cur : option str) (acc : list module) : res (list module) :=
  match lines with
  | [] => Ok acc
  | l :: rest =>
      match code l with
      | w0 :: w1 :: more =>
          if str_eqb (lower w0) (L "module") && negb (str_eqb (lower w1) (L "procedure")) then
            if mem w1 (map m_name acc) then Raise "Exception"
            else find_modules rest (k + 1) (Some w1) (acc ++ [mkMod w1 k None])
          else if str_eqb (lower w0) (L "end") && str_eqb (lower w1) (L "module") then
            match cur with
            | None => Raise "UnboundLocalError"
            | Some m =>
                match more with
                | w2 :: _ => if str_eqb m w2 then find_modules rest (k + 1) cur (set_end m k acc) else Raise "Exception"
                | [] => find_modules rest (k + 1) cur (set_end m k acc)
                end
            end
          else find_modules rest (k + 1) cur acc
      | _ => find_modules rest (k + 1) cur acc
      end
  end.

(* common.py L15-L20, L603-L610: the scheme's name if the subroutine belongs to a phase: the first that matches *)
Definition ccpp_stages : list str := [L "timestep_init"; L "timestep_finalize"; L "init"; L "run"; L "finalize"].
Fixpoint first_stage (l : list str) (name : str) : option str :=
  match l with
  | [] => None
  | st :: rest => if endswith (L "_" ++ st) name then Some (firstn (List.length name - List.length (L "_" ++ st)) name) else first_stage rest name
  end.
Definition scheme_of (name : str) : option str := first_stage ccpp_stages name.

(* a subroutine with its first and last line *)
Record sub := mkSub { s_name : str; s_start : nat; s_end : nat }.
(* in_subroutine with the lines recorded so far; last is the Python variable subroutine_name *)
Record scan := mkScan { done : list sub; opened : option (str * nat); last : option str }.
(* L587-L632: one line of module m; k is its number.  words[1].split('(')[0] *)
Definition scan_line (m : str) (k : nat) (l : str) (st : scan) : res scan :=
  match code l with
  | w0 :: w1 :: more =>
      if str_eqb (lower w0) (L "subroutine") then
        match opened st with
        | Some _ => Ok st
        | None =>
            let name := takewhile (fun c => negb (Ascii.eqb c "(")) w1 in
            match scheme_of name with
            | Some p =>
                if negb (str_eqb p m) then Raise "Exception"
                else if mem name (map s_name (done st)) then Raise "Exception"
                else Ok (mkScan (done st) (Some (name, k)) (Some name))
            | None => Ok (mkScan (done st) None (Some name))
            end
        end
      else if str_eqb (lower w1) (L "subroutine") && str_eqb (lower w0) (L "end") then
        name <- match more with w2 :: _ => Ok w2 | [] => match last st with Some n => Ok n | None => Raise "UnboundLocalError" end end ;;
        match opened st with
        | Some (n, s) => if str_eqb n name then Ok (mkScan (done st ++ [mkSub n s k]) None (last st)) else Ok st
        | None => Ok st
        end
      else Ok st
  | [w0] => if (match opened st with Some _ => true | None => false end) && str_eqb (lower w0) (L "end") then Raise "Exception" else Ok st
  | [] => Ok st
  end.
Fixpoint scan_lines (m : str) (k : nat) (lines : list str) (st : scan) : res scan :=
  match lines with [] => Ok st | l :: rest => st <- scan_line m k l st ;; scan_lines m (k + 1) rest st end.
(* L580-L586, L634-L638: all subroutines of a module; each must have been closed *)
Definition subroutines (lines : list str) (m : module) (lst : option str) : res (list sub * option str) :=
  match m_end m with
  | None => Raise "KeyError"
  | Some e =>
      st <- scan_lines (m_name m) (m_start m) (firstn (e - m_start m) (skipn (m_start m) lines)) (mkScan [] None lst) ;;
      match opened st with
      | Some _ => Raise "Exception"
      | None => Ok (done st, match rev (done st) with s :: _ => Some (s_name s) | [] => last st end)
      end
  end.

(* L654-L670: the line of the table's header, searching upwards from line k *)
Definition is_header (name l : str) : bool :=
  match words l with
  | w0 :: w1 :: w2 :: _ => (str_eqb w0 (L "!!") || str_eqb w0 (L "!>")) && contains (L "\section") w1 && contains (L "arg_table_" ++ name) w2
  | _ => false
  end.
Definition mentions (name l : str) : bool := existsb (contains (L "arg_table_" ++ name)) (words l).
Fixpoint find_table (lines : list str) (name : str) (k : nat) : res (option nat) :=
  let l := nth k lines [] in
  if is_header name l then Ok (Some k)
  else if mentions name l then Raise "Exception"
  else match k with 0 => Ok None | Datatypes.S k => find_table lines name k end.
(* L672-L730: the standard names of a subroutine's arguments; [read] is read_new_metadata for the table *)
Definition mandatory : list str := [L "ccpp_error_message"; L "ccpp_error_code"].
Definition table_args (read : res (list (str * prevar) * list str)) (lines : list str) (name : str) (start : nat) : res (list str) :=
  t <- find_table lines name start ;;
  match t with
  | None => Ok []
  | Some h =>
      let l := nth (h + 1) lines [] in
      args <- (if contains (L "htmlinclude") (lower l) then
                 match words l with
                 | [w0; w1; _] =>
                     if str_eqb w0 (L "!!") && str_eqb w1 (L "\htmlinclude") then
                       md <- read ;;
                       match words (nth (h + 2) lines []) with
                       | [w] => if str_eqb w (L "!!") then Ok (map fst (fst md)) else Raise "Exception"
                       | _ => Raise "Exception"
                       end
                     else Raise "Exception"
                 | _ => Raise "Exception"
                 end
               else match words l with
                    | [w] => if str_eqb w (L "!!") then Ok [] else Raise "Exception"
                    | _ => Raise "Exception"
                    end) ;;
      match args with
      | [] => Ok []
      | _ => if forallb (fun x => mem x args) mandatory then Ok args else Raise "Exception"
      end
  end.
Fixpoint tables (headers : list header) (lines : list str) (m : str) (subs : list sub) : res (list (str * list str)) :=
  match subs with
  | [] => Ok []
  | s :: rest =>
      a <- table_args (read_new_metadata headers m (s_name s) (Some m)) lines (s_name s) (s_start s) ;;
      r <- tables headers lines m rest ;;
      Ok ((s_name s, a) :: r)
  end.
(* L579-L769: a module without scheme subroutines has no entry *)
Fixpoint parse_modules (headers : list header) (lines : list str) (mods : list module) (lst : option str) : res (list (str * list (str * list str))) :=
  match mods with
  | [] => Ok []
  | m :: rest =>
      p <- subroutines lines m lst ;;
      t <- tables headers lines (m_name m) (fst p) ;;
      r <- parse_modules headers lines rest (snd p) ;;
      Ok (match t with [] => r | _ => (m_name m, t) :: r end)
  end.
Definition parse_scheme (headers : list header) (file : list str) : res (list (str * list (str * list str))) :=
  let lines := join_lines [] file in
  mods <- find_modules lines 0 None [] ;; parse_modules headers lines mods None.
