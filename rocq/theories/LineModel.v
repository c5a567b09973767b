(* LineModel.v: reading source lines.
   scripts/fortran_tools/parse_fortran_file.py (line_statements, read_statements),
   scripts/fortran_tools/parse_fortran.py (Ftype.reassemble_parens),
   scripts/parse_tools/parse_object.py (ParseObject),
   scripts/parse_tools/parse_source.py (ContextRegion, ParseContext). *)
From Verif Require Import PyStr.
Open Scope nat_scope.
Open Scope list_scope.

(* ---- line_statements, parse_fortran_file.py L56-112 ---- *)
(* [mode] is the open quote; [cur] is line[ind_start:ind_end].  The index loop is a
   recursion over the rest of the line. *)
Definition flush (cur : str) : list str := match cur with [] => [] | _ => [cur] end.
Fixpoint ls_loop (mode : option ascii) (cur : str) (s : str) : list str :=
  match s with
  | [] => flush cur
  | c :: t =>
      match mode with
      | Some q => ls_loop (if Ascii.eqb c q then None else Some q) (cur ++ [c]) t
      | None =>
          if Ascii.eqb c "'" then ls_loop (Some "'"%char) (cur ++ [c]) t
          else if Ascii.eqb c """" then ls_loop (Some """"%char) (cur ++ [c]) t
          else if Ascii.eqb c "!" then flush (cur ++ s)
          else if Ascii.eqb c ";" then flush cur ++ ls_loop None [] t
          else ls_loop None (cur ++ [c]) t
      end
  end.
Definition line_statements (line : str) : list str := ls_loop None [] line.

(* ---- Ftype.reassemble_parens, parse_fortran.py L214-240, with the default splitstr ---- *)
Definition count_c (c : ascii) (s : str) : nat := length (List.filter (Ascii.eqb c) s).
Definition same_count (s : str) : bool := Nat.eqb (count_c "(" s) (count_c ")" s).
(* both while loops: [var] is the piece built so far, [rest] is proplist *)
Fixpoint glue (var : str) (rest : list str) : res (list str) :=
  if same_count var then
    match rest with
    | [] => Ok [var]
    | p :: r => l <- glue p r ;; Ok (var :: l)
    end
  else match rest with
       | [] => Raise "ParseSyntaxError"
       | p :: r => glue (var ++ L "," ++ p) r
       end.
Definition keep (l : list str) : list str := List.filter (fun v => negb (str_eqb v [])) (map strip l).
Definition reassemble_parens (propstr : str) : res (list str) :=
  match split_on "," propstr with
  | [] => Ok []
  | p :: r => l <- glue p r ;; Ok (keep l)
  end.

(* ---- ParseObject, parse_object.py ---- *)
(* line numbers are natural: the constructor is only called with line_start >= 0.
   Messages are counted, not spelled out: [po_msgs] is the number of messages in
   error_message, [po_max] says that the maximum was reported. *)
Record pobj := mkPO { po_lines : list str; po_num : nat; po_next : nat; po_errs : nat; po_msgs : nat; po_max : bool }.
(* __init__, L34-43 *)
Definition po_new (lines : list str) (start : nat) : pobj := mkPO lines start start 0 0 false.
Definition ends_bs (s : str) : bool := match rev s with c :: _ => Ascii.eqb c "\" | [] => false end.
Definition po_pos (p : pobj) (num next : nat) : pobj := mkPO (po_lines p) num next (po_errs p) (po_msgs p) (po_max p).
(* curr_line, L65-90: text (None if invalid) and the new next line; the recursion through
   next_line goes up the lines, [fuel] bounds it *)
Fixpoint read_from (fuel : nat) (lines : list str) (num next : nat) : option str * nat :=
  match fuel with
  | 0 => (None, next)
  | S fuel =>
      match nth_error lines num with
      | None => (None, next)
      | Some l =>
          let cur := rstrip l in
          if ends_bs cur then
            match read_from fuel lines (S num) (S num) with
            | (None, n) => (Some (removelast cur), n)
            | (Some t, n) => (Some (removelast cur ++ t), n)
            end
          else (Some cur, S num)
      end
  end.
Definition curr_line (p : pobj) : pobj * (option str * nat) :=
  let '(t, n) := read_from (S (length (po_lines p))) (po_lines p) (po_num p) (po_next p) in
  (po_pos p (po_num p) n, (t, po_num p)).
(* next_line, L92-96 *)
Definition next_line (p : pobj) : pobj * (option str * nat) := curr_line (po_pos p (po_next p) (po_next p)).
(* peek_line, L98-104 *)
Definition peek_line (p : pobj) (i : nat) : option str := nth_error (po_lines p) i.
(* reset_pos, L133-141 *)
Definition reset_pos (p : pobj) (i : nat) : res pobj :=
  if i <? length (po_lines p) then Ok (po_pos p i i) else Raise "CCPPError: reset_pos".
(* write_line, L143-150 *)
Definition write_line (p : pobj) (i : nat) (l : str) : res pobj :=
  if i <? length (po_lines p) then Ok (mkPO (list_set (po_lines p) i l) (po_num p) (po_next p) (po_errs p) (po_msgs p) (po_max p))
  else Raise "CCPPError: write_line".
Definition max_errors : nat := 32.
(* add_syntax_err, L106-131; error_message is empty as long as no message was added *)
Definition add_syntax_err (p : pobj) : res pobj :=
  if (0 <? po_msgs p) && (max_errors <? po_errs p) then Raise "CCPPError: too many errors"
  else
    let p1 := if (0 <? po_msgs p) && (po_errs p =? max_errors)
              then mkPO (po_lines p) (length (po_lines p)) (length (po_lines p)) (po_errs p) (po_msgs p) true else p in
    Ok (mkPO (po_lines p1) (po_num p1) (po_next p1) (S (po_errs p1)) (if po_errs p1 <? max_errors then S (po_msgs p1) else po_msgs p1) (po_max p1)).

(* read_statements, parse_fortran_file.py L116-127; [fuel] bounds the loop *)
Fixpoint read_statements (fuel : nat) (p : pobj) : option (pobj * option (list str)) :=
  match fuel with
  | 0 => None
  | S fuel =>
      let '(p', (t, _)) := next_line p in
      match t with
      | None => Some (p', None)
      | Some l => let st := line_statements l in
                  if existsb (fun x => 0 <? length x) st then Some (p', Some st) else read_statements fuel p'
      end
  end.

(* ---- ContextRegion and ParseContext, parse_source.py L165-360 ---- *)
(* innermost region last *)
Definition region := (str * option str)%type.
Definition regions := list region.
Definition opt_str_eqb (a b : option str) : bool :=
  match a, b with None, None => true | Some x, Some y => str_eqb x y | _, _ => false end.
(* enter_region, L291-300 *)
Definition enter_region (r : regions) (ty : str) (name : option str) (nested_ok : bool) : regions * bool :=
  if negb (existsb (str_eqb ty) (map fst r)) || nested_ok then (r ++ [(ty, name)], true) else (r, false).
(* leave_region, L302-327: the region is popped before it is checked; the flag is
   false when an exception is raised *)
Definition leave_region (r : regions) (ty : str) (name : option str) : regions * bool :=
  match rev r with
  | [] => (r, false)
  | (ct, cn) :: _ =>
      let r' := removelast r in
      if negb (str_eqb ct ty) then (r', false)
      else match name, cn with
           | Some n, Some c => (r', str_eqb n c)
           | Some _, None => (r', false)
           | None, _ => (r', true)
           end
  end.
(* curr_region, in_region, L329-341 *)
Definition curr_region (r : regions) : option region := match rev r with [] => None | x :: _ => Some x end.
Definition in_region (r : regions) (ty : str) (name : option str) : bool :=
  match curr_region r with
  | Some (t, n) => str_eqb t ty && opt_str_eqb n name
  | None => false
  end.
