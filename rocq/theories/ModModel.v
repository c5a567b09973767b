(* ModModel.v: model of scripts/fortran_tools/parse_fortran_file.py L31-52 and L462-1000:
   finding the documented routines, types and module variables of a Fortran file.  The file
   is the list of its statements with the ends of lines, as read_statements delivers them
   (read_file and line_statements are modelled in ScanModel and LineModel); the list of
   statements being worked on and the parse object are one list of tokens here, "put back"
   is not consuming, and None (end of file) is the empty list.  Left out: PROGRAM units,
   messages, log output, source locations, the checks made by the constructors of variables
   and tables, and parse_use_statement, whose expression matches no use statement of Fortran. *)
From Verif Require Import PyStr CheckModel LineModel DeclModel.
Open Scope nat_scope.
Open Scope list_scope.

(* ---- the regular expressions, L31-52 ---- *)
(* FORTRAN_ID at the start of s *)
Definition id_at (s : str) : option (str * str) :=
  match s with
  | c :: _ => if is_alpha c then Some (takewhile is_word s, dropwhile is_word s) else None
  | [] => None
  end.
(* the rest after a word, up to case *)
Definition after_word (w s : str) : option str := match after_ci w s with Some (_, r) => Some r | None => None end.
(* _SUBROUTINE_RE: the name and the text between the parentheses *)
Definition skip_prefix (s : str) : str :=
  match after_word (L "recursive") s with Some r => r | None =>
  match after_word (L "pure") s with Some r => r | None =>
  match after_word (L "elemental") s with Some r => r | None => s end end end.
Definition sub_match (s : str) : option (str * option str) :=
  match after_word (L "subroutine") (lstrip (skip_prefix (lstrip s))) with
  | Some r =>
      match id_at (lstrip r) with
      | Some (n, r2) =>
          match lstrip r2 with
          | c :: r3 => if Ascii.eqb c "(" then
                         if has_c ")" (lstrip r3) then Some (n, Some (upto_c ")" (lstrip r3))) else Some (n, None)
                       else Some (n, None)
          | [] => Some (n, None)
          end
      | None => None
      end
  | None => None
  end.
(* the rest after end and a word *)
Definition after_end (w s : str) : option str :=
  match after_word (L "end") (lstrip s) with Some r => after_word w (lstrip r) | None => None end.
(* _END_SUBROUTINE_RE *)
Definition endsub_match (s : str) : bool := match after_end (L "subroutine") s with Some _ => true | None => false end.
(* _ENDMODULE_RE: the name, if any; blanks must follow the word *)
Definition endmod_match (s : str) : option (option str) :=
  match after_end (L "module") s with
  | Some r => match blanks r with
              | [] => None
              | _ => Some (match id_at (lstrip r) with Some (n, _) => Some n | None => None end)
              end
  | None => None
  end.
(* _MODULE_RE *)
Definition module_match (s : str) : option str :=
  match after_word (L "module") (lstrip s) with
  | Some r => match blanks r with [] => None | _ => match id_at (lstrip r) with Some (n, _) => Some n | None => None end end
  | None => None
  end.
(* _ARG_TABLE_START_RE *)
Definition table_match (s : str) : option str :=
  match lstrip s with
  | c :: d :: r =>
      if Ascii.eqb c "!" && (Ascii.eqb d "!" || Ascii.eqb d ">") then
        let r1 := lstrip r in
        let r2 := match after_word (L "\section") r1 with Some x => x | None => r1 end in
        match after_word (L "arg_table_") (lstrip r2) with
        | Some r3 => match id_at r3 with Some (n, _) => Some n | None => None end
        | None => None
        end
      else None
  | _ => None
  end.
(* _CONTAINS_RE, is_contains_statement L747-750 *)
Definition contains_match (s : str) : bool := match after_word (L "contains") (strip s) with Some _ => true | None => false end.
(* _END_TYPE_RE *)
Definition endtype_match (s : str) : bool := match after_end (L "type") s with Some _ => true | None => false end.
(* _INTENT_STMT_RE.search, is_dummy_argument_statement L475-477 *)
Fixpoint dummy_match (s : str) : bool :=
  match s with
  | [] => false
  | c :: t => (Ascii.eqb c "," && match after_word (L "intent") (lstrip t) with Some r => starts_c "(" (lstrip r) | None => false end) || dummy_match t
  end.
(* is_comment_statement, L481-483 *)
Definition comment_stmt (s : str) : res bool :=
  match lstrip s with [] => Raise "IndexError" | c :: _ => Ok (Ascii.eqb c "!") end.

(* ---- statements and tables ---- *)
Inductive tok := St (s : str) | NL.
Record table := mkT { t_name : str; t_kind : string; t_module : str; t_vars : list dvar }.
Definition same_name (a b : str) : bool := str_eqb (lower a) (lower b).

(* the loops "for var in dvars: var_dict.add_variable(var)"; standard names are generated
   and differ, so only a local name can be there already (metavar.py L1680-1691) *)
Fixpoint add_vars (vs l : list dvar) : res (list dvar) :=
  match l with
  | [] => Ok vs
  | v :: r => if existsb (fun x => same_name (dv_name x) (dv_name v)) vs then Raise "ParseSyntaxError: local_name already registered"
              else add_vars (vs ++ [v]) r
  end.
(* a variable declaration of a type or module *)
Definition data_stmt (logger : bool) (vs : list dvar) (s : str) : res (list dvar) :=
  c <- comment_stmt s ;;
  if c then Ok vs else dv <- parse_fortran_var_decl false logger s ;; add_vars vs dv.

(* ---- parse_type_def, L487-527: the variables of the header, if the end was found ---- *)
Fixpoint type_scan (logger : bool) (toks : list tok) (inspec seen : bool) (vs : list dvar) (hdr : option (list dvar))
  : res (list tok * option (list dvar)) :=
  match toks with
  | [] => Ok ([], hdr)
  | NL :: r => if inspec then type_scan logger r inspec seen vs hdr else Ok (r, hdr)
  | St s :: r =>
      if endtype_match s then type_scan logger r false seen vs (Some vs)
      else if inspec && contains_match s then type_scan logger r inspec true vs hdr
      else if negb seen then vs <- data_stmt logger vs s ;; type_scan logger r inspec seen vs hdr
      else type_scan logger r inspec seen vs hdr
  end.

(* ---- parse_preamble_data, L531-613, for a module; [fuel] bounds the number of steps ---- *)
Fixpoint preamble (fuel : nat) (logger : bool) (name : str) (toks : list tok) (active : option str) (vs : list dvar) (hs : list table)
  : res (list tok * list table) :=
  match fuel with
  | 0 => Raise "fuel"
  | S fuel =>
      match toks with
      | [] => Ok ([], hs)
      | NL :: r => preamble fuel logger name r active vs hs
      | St s :: r =>
          td <- type_def_line s ;;
          match table_match s with
          | Some t => preamble fuel logger name r (Some t) vs hs
          | None =>
              if (match endmod_match s with Some _ => true | None => false end) || contains_match s
              then Ok (St s :: r, hs ++ [mkT name "module" name vs])
              else match td with
              | Some (n, _, _) =>
                  h <- type_scan logger (St s :: r) true false [] None ;;
                  match active with
                  | Some t => if same_name n t then
                                match snd h with
                                | None => Raise "CCPPError: No DDT found"
                                | Some tv => preamble fuel logger name (fst h) None vs (hs ++ [mkT n "ddt" name tv])
                                end
                              else preamble fuel logger name (fst h) active vs hs
                  | None => preamble fuel logger name (fst h) active vs hs
                  end
              | None =>
                  match active with
                  | Some t =>
                      (* the order of the tests: the comment first (L594) *)
                      c <- comment_stmt s ;;
                      if negb c && same_name t name
                      then dv <- parse_fortran_var_decl false logger s ;; vs <- add_vars vs dv ;; preamble fuel logger name r active vs hs
                      else preamble fuel logger name r active vs hs
                  | None => preamble fuel logger name r active vs hs
                  end
              end
          end
      end
  end.

(* ---- parse_scheme_metadata, L617-742 ---- *)
Record sst := mkS { z_pre : bool; z_insub : bool; z_seen : bool; z_name : option str; z_dict : option (list (str * option dvar)) }.
(* the dummy arguments of the statement, L664-688 *)
Fixpoint dummy_dict (l : list str) (d : list (str * option dvar)) : res (list (str * option dvar)) :=
  match l with
  | [] => Ok d
  | a :: r => if is_nil a then Raise "ParseInternalError: Empty argument"
              else if existsb (fun kv => str_eqb (fst kv) a) d then Raise "ParseSyntaxError: Duplicate dummy argument"
              else dummy_dict r (d ++ [(a, None)])
  end.
Definition dummy_names (args : option str) : list str :=
  match args with
  | Some a => if is_nil (strip a) then [] else map (fun x => lower (strip x)) (split_on "," (strip a))
  | None => []
  end.
(* L704-717 *)
Fixpoint declare (d : list (str * option dvar)) (l : list dvar) : res (list (str * option dvar)) :=
  match l with
  | [] => Ok d
  | v :: r =>
      let n := lower (dv_name v) in
      match List.find (fun kv => str_eqb (fst kv) n) d with
      | Some (_, None) => declare (map (fun kv => if str_eqb (fst kv) n then (n, Some v) else kv) d) r
      | Some (_, Some _) => Raise "ParseSyntaxError: duplicate dummy argument"
      | None => Raise "ParseSyntaxError: dummy argument"
      end
  end.
(* the result: the rest, whether the module was left, and the state *)
Fixpoint scheme_scan (logger : bool) (tbl : str) (toks : list tok) (z : sst) : res (list tok * bool * sst) :=
  match toks with
  | [] => Ok ([], false, z)
  | NL :: r => if z_insub z then scheme_scan logger tbl r z else Ok (r, false, z)
  | St s :: r =>
      let seen := z_seen z || (z_insub z && contains_match s) in
      let pre := if seen then false else z_pre z in
      match table_match s with
      | Some _ => Ok (St s :: r, false, mkS pre false seen (z_name z) (z_dict z))
      | None =>
          match endmod_match s with
          | Some _ => Ok (r, true, mkS pre false seen (z_name z) (z_dict z))
          | None =>
              match (if seen then None else sub_match s) with
              | Some (n, args) =>
                  if same_name n tbl
                  then d <- dummy_dict (dummy_names args) [] ;; scheme_scan logger tbl r (mkS true (z_insub z) seen (Some n) (Some d))
                  else scheme_scan logger tbl r (mkS false (z_insub z) seen (Some n) (z_dict z))
              | None =>
                  if pre || seen then
                    if endsub_match s then scheme_scan logger tbl r (mkS false false false (z_name z) (z_dict z))
                    else if pre then
                      c <- comment_stmt s ;;
                      if negb c && dummy_match s then
                        dv <- parse_fortran_var_decl true logger s ;;
                        match z_dict z with
                        | Some d => d <- declare d dv ;; scheme_scan logger tbl r (mkS pre (z_insub z) seen (z_name z) (Some d))
                        | None => match dv with [] => scheme_scan logger tbl r (mkS pre (z_insub z) seen (z_name z) None) | _ => Raise "TypeError" end
                        end
                      else scheme_scan logger tbl r (mkS pre (z_insub z) seen (z_name z) (z_dict z))
                    else scheme_scan logger tbl r (mkS pre (z_insub z) seen (z_name z) (z_dict z))
                  else scheme_scan logger tbl r (mkS pre (z_insub z) seen (z_name z) (z_dict z))
              end
          end
      end
  end.
Fixpoint all_declared (d : list (str * option dvar)) : option (list dvar) :=
  match d with
  | [] => Some []
  | (_, Some v) :: r => match all_declared r with Some l => Some (v :: l) | None => None end
  | (_, None) :: _ => None
  end.
Definition parse_scheme_metadata (logger : bool) (mod_name tbl : str) (toks : list tok) : res (list tok * bool * table) :=
  x <- scheme_scan logger tbl toks (mkS false true false None None) ;;
  let '(r, gone, z) := x in
  match z_dict z with
  | None => Raise "CCPPError: Subroutine not found"
  | Some d => match all_declared d, z_name z with
              | Some vs, Some n => Ok (r, gone, mkT n "scheme" mod_name vs)
              | _, _ => Raise "CCPPError: Missing local_variables"
              end
  end.

(* ---- parse_specification, L766-840, for a module ---- *)
Fixpoint spec_scan (fuel : nat) (logger : bool) (name : str) (toks : list tok) (ts : list table) : res (list tok * list table) :=
  match fuel with
  | 0 => Raise "fuel"
  | S fuel =>
      match toks with
      | [] => Ok ([], ts)
      | NL :: r => spec_scan fuel logger name r ts
      | St s :: r =>
          td <- type_def_line s ;;
          match endmod_match s with
          | Some _ => Ok (r, ts)
          | None =>
              match table_match s with
              | Some _ => p <- preamble (S (length toks)) logger name (St s :: r) None [] [] ;; spec_scan fuel logger name (fst p) (ts ++ snd p)
              | None =>
                  match td with
                  | Some _ => h <- type_scan logger (St s :: r) true false [] None ;; spec_scan fuel logger name (fst h) ts
                  | None => if contains_match s then Ok (r, ts) else spec_scan fuel logger name r ts
                  end
              end
          end
      end
  end.

(* ---- parse_module, L885-962 ---- *)
(* L911-957; the test for duplicate titles (L931) compares a text with table objects and
   never succeeds.  leave_region compares the names as they are written (parse_source.py
   L316-341) *)
Fixpoint module_scan (fuel : nat) (logger : bool) (region name : str) (toks : list tok) (active : option str) (insub seen : bool)
                     (ts : list table) (subs : list str) : res (list tok * list table * list str) :=
  match fuel with
  | 0 => Raise "fuel"
  | S fuel =>
      match toks with
      | [] => Ok ([], ts, subs)
      | NL :: r => module_scan fuel logger region name r active insub seen ts subs
      | St s :: r =>
          let seen := seen || (insub && contains_match s) in
          match table_match s with
          | Some t => module_scan fuel logger region name r (Some t) insub seen ts subs
          | None =>
              match endmod_match s with
              | Some None => Ok (r, ts, subs)
              | Some (Some n) => if str_eqb n region then Ok (r, ts, subs) else Raise "ParseContextError: Trying to exit"
              | None =>
                  match active with
                  | Some t =>
                      x <- parse_scheme_metadata logger name t r ;;
                      let '(r, gone, h) := x in
                      if gone then Ok (r, ts ++ [h], subs) else module_scan fuel logger region name r None insub seen (ts ++ [h]) subs
                  | None =>
                      match sub_match s with
                      | Some (n, _) => if seen then module_scan fuel logger region name r None insub (if endsub_match s then false else seen) ts subs
                                       else module_scan fuel logger region name r None true seen ts (subs ++ [strip n])
                      | None =>
                          if endsub_match s then
                            if seen then module_scan fuel logger region name r None insub false ts subs
                            else module_scan fuel logger region name r None false seen ts subs
                          else module_scan fuel logger region name r None insub seen ts subs
                      end
                  end
              end
          end
      end
  end.
Definition parse_module (logger : bool) (name : str) (toks : list tok) : res (list tok * list table * list str) :=
  p <- spec_scan (S (length toks)) logger name toks [] ;;
  module_scan (S (length (fst p))) logger name name (fst p) None false false (snd p) [].

(* ---- parse_fortran_file, L966-1000; [more] are the additional routines so far ---- *)
Fixpoint file_scan (fuel : nat) (logger : bool) (toks : list tok) (ts : list table) (more : option (list str)) : res (list table * list str) :=
  match fuel with
  | 0 => Raise "fuel"
  | S fuel =>
      match toks with
      | [] => match more with Some l => Ok (ts, l) | None => Raise "UnboundLocalError: additional_routines" end
      | NL :: r => file_scan fuel logger r ts more
      | St s :: r =>
          match module_match s with
          | Some n => p <- parse_module logger n r ;; let '(r, t, l) := p in file_scan fuel logger r (ts ++ t) (Some l)
          | None => file_scan fuel logger r ts more
          end
      end
  end.
(* the statements of each line, without the empty lines *)
Definition tokens (lines : list (list str)) : list tok := List.concat (map (fun l => map St l ++ [NL]) lines).
Definition parse_fortran_file (logger : bool) (lines : list (list str)) : res (list table * list str) :=
  match List.concat lines with
  | [] => Raise "AttributeError"
  | _ => file_scan (S (length (tokens lines))) logger (tokens lines) [] None
  end.
