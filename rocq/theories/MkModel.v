(* MkModel.v: the files ccpp_prebuild.py writes for the host's build system
   (scripts/ccpp_prebuild.py generate_typedefs_makefile, generate_schemes_makefile,
   generate_caps_makefile; the classes of scripts/mkcap.py L428-828) and the update of the
   generated caps (scripts/mkstatic.py Group.write, Suite.write, API.write,
   API.write_includefile), as sequences of file system operations that may stop anywhere.
   Simplifications: filecmp.cmp compares contents (its default also accepts equal size
   and time stamp); a call to open(.., 'w') to close() is one operation, which may be
   interrupted with any content in the file; directories exist. *)
From Verif Require Import PyStr ReqModel.
From Coq Require Import Lia.
Open Scope nat_scope.
Open Scope list_scope.

(* ---- the text of the files ---- *)
Definition tab : ascii := Ascii.ascii_of_nat 9.
Definition bslash : ascii := Ascii.ascii_of_nat 92.
Definition lines (l : list string) : str := List.concat (map (fun s => L s ++ [nl]) l).
Definition head (what : string) : str :=
  nl :: lines [("# All CCPP " ++ what ++ " are defined here.")%string; "#"; "# This file is auto-generated using ccpp_prebuild.py";
               "# at compile time, do not edit manually."; "#"]%string.
(* ' \\\n\t   {0}' *)
Definition mk_item (s : str) : str := L " " ++ [bslash; nl; tab] ++ L "   " ++ s.
Definition mk_items (l : list str) : str := List.concat (map mk_item l).
(* CapsMakefile.write mkcap.py L428-456, TypedefsMakefile.write L705-733 *)
Definition simple_makefile (what var : string) (l : list str) : str := head what ++ L var ++ L " =" ++ mk_items l.
(* SchemesMakefile.write L553-605: the four lists by file name ending.  The code puts them
   in by str.replace on a template; a path that contains the text SCHEMES_F90 = (or _f, _f90)
   would be changed by that, which is not modelled *)
Fixpoint ends_with (e s : str) : bool := str_eqb e s || match s with [] => false | _ :: t => ends_with e t end.
Definition of_suffix (e : string) (l : list str) : list str := List.filter (ends_with (L e)) l.
Definition schemes_makefile (l : list str) : str :=
  head "schemes" ++ L "SCHEMES_F =" ++ mk_items (of_suffix ".F" l) ++ [nl; nl] ++ L "SCHEMES_F90 =" ++ mk_items (of_suffix ".F90" l) ++
  [nl; nl] ++ L "SCHEMES_f =" ++ mk_items (of_suffix ".f" l) ++ [nl; nl] ++ L "SCHEMES_f90 =" ++ mk_items (of_suffix ".f90" l).
(* CapsCMakefile L466-498, SchemesCMakefile L615-650, TypedefsCMakefile L743-775 *)
Definition cmakefile (what var : string) (l : list str) : str :=
  head what ++ L "set(" ++ L var ++ [nl] ++ List.concat (map (fun s => L "      " ++ s ++ [nl]) l) ++ L ")" ++ [nl].
(* str.rstrip(';') *)
Definition rstrip_semi (s : str) : str := rev (dropwhile (Ascii.eqb ";") (rev s)).
(* CapsSourcefile L508-543, SchemesSourcefile L660-695, TypedefsSourcefile L785-820; the
   quotation mark is character 34 *)
Definition quote : ascii := Ascii.ascii_of_nat 34.
Definition sourcefile (what var : string) (l : list str) : str :=
  rstrip_semi (head what ++ L "export " ++ L var ++ L "=" ++ [quote] ++ List.concat (map (fun s => s ++ L ";") l)) ++ [quote; nl].

(* ---- the three files of one kind ---- *)
(* the makefile, the cmakefile and the shell file, and their '.tmp' files: six different
   paths *)
Inductive target := Mk | Cm | Src.
Definition path := (target * bool)%type.      (* true: the '.tmp' file *)
Definition fs := path -> option str.
Definition path_eqb (p q : path) : bool :=
  match p, q with
  | (Mk, a), (Mk, b) | (Cm, a), (Cm, b) | (Src, a), (Src, b) => Bool.eqb a b
  | _, _ => false
  end.
Definition upd (f : fs) (p : path) (v : option str) : fs := fun q => if path_eqb q p then v else f q.
Inductive op := Write (p : path) (c : str) | Remove (p : path) | Rename (p q : path).
Definition apply_op (f : fs) (o : op) : fs :=
  match o with
  | Write p c => upd f p (Some c)
  | Remove p => upd f p None
  | Rename p q => upd (upd f q (f p)) p None
  end.
Definition apply_ops (f : fs) (l : list op) : fs := fold_left apply_op l f.
Definition is_file (f : fs) (p : path) : bool := match f p with Some _ => true | None => false end.
Definition same_content (o : option str) (c : str) : bool := match o with Some d => str_eqb d c | None => false end.
(* ccpp_prebuild.py L618-646 (typedefs), L655-684 (schemes), L693-722 (caps); m, c, s are
   the new contents.  The tests look at files the operations before them do not touch *)
Definition trio_ops (f : fs) (m c s : str) : list op :=
  [Write (Mk, true) m; Write (Cm, true) c; Write (Src, true) s] ++
  if same_content (f (Mk, false)) m
  then [Remove (Mk, true); Remove (Cm, true); Remove (Src, true)]
  else (if is_file f (Mk, false) then [Remove (Mk, false)] else []) ++
       (if is_file f (Cm, false) then [Remove (Cm, false)] else []) ++
       (if is_file f (Src, false) then [Remove (Src, false)] else []) ++
       [Rename (Mk, true) (Mk, false); Rename (Cm, true) (Cm, false); Rename (Src, true) (Src, false)].
Definition trio (f : fs) (m c s : str) : fs := apply_ops f (trio_ops f m c s).
(* a run that is killed: the first k operations, and, if the next one is a write, any part
   of it *)
Definition crash (f : fs) (ops : list op) (k : nat) (partial : option str) : fs :=
  let g := apply_ops f (firstn k ops) in
  match partial, nth_error ops k with
  | Some junk, Some (Write p _) => upd g p (Some junk)
  | _, _ => g
  end.
(* the three kinds; the lists are sorted before (L616, L656, L695) *)
Definition gen_typedefs (f : fs) (l : list str) : fs :=
  let l := sorted l in
  trio f (simple_makefile "types" "TYPEDEFS" l) (cmakefile "types" "TYPEDEFS" l) (sourcefile "types" "CCPP_TYPEDEFS" l).
Definition gen_caps (f : fs) (l : list str) : fs :=
  let l := sorted l in
  trio f (simple_makefile "caps" "CAPS_F90" l) (cmakefile "caps" "CAPS" l) (sourcefile "caps" "CCPP_CAPS" l).
Definition gen_schemes (f : fs) (l : list str) : fs :=
  let l := sorted l in
  trio f (schemes_makefile l) (cmakefile "schemes" "SCHEMES" l) (sourcefile "schemes" "CCPP_SCHEMES" l).

(* ---- caps and API ---- *)
(* a file and its '.test' file, each with the number of the run that last wrote it *)
Record cfile := mkF { cf_file : option (str * nat); cf_test : option (str * nat) }.
(* Group.write L1948-1995, Suite.write L890-935, API.write L479-525, write_includefile
   L527-580: [force] is "any of the caps used has changed"; the result is the update flag *)
Definition write_cap (now : nat) (force : bool) (content : str) (f : cfile) : cfile * bool :=
  match cf_file f with
  | Some (old, t) =>
      if force then (mkF (Some (content, now)) (cf_test f), true)
      else if str_eqb old content then (mkF (Some (old, t)) None, false)
           else (mkF (Some (content, now)) None, true)
  | None => (mkF (Some (content, now)) (cf_test f), true)
  end.
(* one suite: its group caps, then its own cap *)
Fixpoint write_groups (now : nat) (gs : list (str * cfile)) : list cfile * bool :=
  match gs with
  | [] => ([], false)
  | (c, f) :: t =>
      let '(f', u) := write_cap now false c f in
      let '(fs', us) := write_groups now t in
      (f' :: fs', u || us)
  end.
Record scaps := mkSC { sc_groups : list (str * cfile); sc_suite : str * cfile }.
Record sout := mkSO { so_groups : list cfile; so_suite : cfile; so_update : bool }.
Definition write_suite (now : nat) (s : scaps) : sout :=
  let '(gs, any) := write_groups now (sc_groups s) in
  let '(f, u) := write_cap now any (fst (sc_suite s)) (snd (sc_suite s)) in
  mkSO gs f u.
(* all suites (generate_suite_and_group_caps L537-555), the API and one include file
   (generate_static_api L557-575, main L930-937) *)
Definition write_all (now : nat) (ss : list scaps) (api inc : str * cfile) : list sout * cfile * cfile :=
  let outs := map (write_suite now) ss in
  let '(a, u) := write_cap now (existsb so_update outs) (fst api) (snd api) in
  let '(i, _) := write_cap now u (fst inc) (snd inc) in
  (outs, a, i).
