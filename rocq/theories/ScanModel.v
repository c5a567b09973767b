(* ScanModel.v: continuation lines.
   scripts/fortran_tools/parse_fortran_file.py scan_fixed_line (L129-213),
   scan_free_line (L217-333), read_file (L337-459).
   A column is an option: None stands for -1. *)
From Verif Require Import Base PyStr LineModel PreprocModel.
Open Scope nat_scope.
Open Scope list_scope.

Definition is_some {A} (o : option A) : bool := match o with Some _ => true | None => false end.
Definition squote : ascii := "'"%char.
Definition dquote : ascii := """"%char.

(* in_single_char, in_double_char as one value; both true is refused before *)
Definition quote_of (s d : bool) : option ascii := if s then Some squote else if d then Some dquote else None.
Definition is_q (k : ascii) (q : option ascii) : bool := match q with Some c => Ascii.eqb c k | None => false end.

(* _CONTINUE_RE.match(line[index:]), L44, on the text after the ampersand; lines hold no newline *)
Definition cont_ok (t : str) : bool :=
  match dropwhile is_space t with [] => true | c :: _ => Ascii.eqb c "!" end.

(* the while loop of scan_free_line, L279-324, from index [i] over the rest [s] of the
   line without its trailing blanks.  Runs of blanks are skipped one by one.  The test for
   a doubled quote, line[index:min(index+1, last_ind)] == "''", compares at most one
   character with two and is never true: it is left out. *)
Fixpoint scan_loop (i : nat) (q : option ascii) (co : option nat) (s : str) : res (option nat * option ascii * option nat) :=
  match s with
  | [] => Ok (co, q, None)
  | c :: t =>
      if is_space c then scan_loop (S i) q co t
      else match q with
      | Some k =>
          if Ascii.eqb c k then scan_loop (S i) None co t
          else if Ascii.eqb c "&" then scan_loop (S i) q (match t with [] => Some i | _ => co end) t
          else scan_loop (S i) q co t
      | None =>
          if Ascii.eqb c squote then scan_loop (S i) (Some squote) co t
          else if Ascii.eqb c dquote then scan_loop (S i) (Some dquote) co t
          else if Ascii.eqb c "!" then Ok (co, None, Some i)
          else if Ascii.eqb c "&" then
            if cont_ok t then scan_loop (S i) None (Some i) t else Raise "ParseSyntaxError: Invalid continue"
          else scan_loop (S i) None co t
      end
  end.
(* line.find('&') for a line whose first character that is not blank is '&' *)
Definition lead (line : str) : nat := length (takewhile is_space line).
(* scan_free_line, L217-333: continue_in_col, continue_out_col, in_single_char,
   in_double_char, comment_col *)
Definition scan_free_line (line : str) (in_continue s d : bool) : res (option nat * option nat * bool * bool * option nat) :=
  if (s || d) && negb in_continue then Raise "ParseSyntaxError: Cannot start line in character context"
  else if s && d then Raise "ParseSyntaxError: both contexts"
  else match lstrip line with
  | [] => Raise "IndexError"
  | c :: _ =>
      if Ascii.eqb c "&" && negb in_continue then Raise "ParseSyntaxError: Cannot begin line with continue character"
      else
        let ci := if Ascii.eqb c "&" then Some (lead line) else None in
        let start := match ci with Some k => S k | None => 0 end in
        r <- scan_loop start (quote_of s d) None (skipn start (rstrip line)) ;;
        let '(co, q, cm) := r in
        if is_some q && negb (is_some co) then Raise "ParseSyntaxError: Cannot end non-continued line in a character context"
        else Ok (ci, co, is_q squote q, is_q dquote q, cm)
  end.

(* _FIXED_COMMENT_RE, L34: position of the comment character *)
Definition fixed_comment (line : str) : option nat :=
  match line with
  | c :: t =>
      if Ascii.eqb c "C" || Ascii.eqb c "c" || Ascii.eqb c "*" then Some 0
      else let b := takewhile (Ascii.eqb " ") line in
           match skipn (length b) line with
           | k :: _ => if Ascii.eqb k "!" && (length b <=? 4) then Some (length b) else None
           | [] => None
           end
  | [] => None
  end.
(* _FIXED_CONTINUE_RE, L45 *)
Definition fixed_continue (line : str) : bool :=
  forallb (Ascii.eqb " ") (firstn 5 line) && (length (firstn 5 line) =? 5) &&
  match nth_error line 5 with Some c => negb (Ascii.eqb c "0") && negb (Ascii.eqb c " ") | None => false end.
(* the while loop of scan_fixed_line, L178-211 *)
Fixpoint fixed_loop (i : nat) (q : option ascii) (s : str) : option ascii * option nat :=
  match s with
  | [] => (q, None)
  | c :: t =>
      if is_space c then fixed_loop (S i) q t
      else match q with
      | Some k => if Ascii.eqb c k then fixed_loop (S i) None t else fixed_loop (S i) q t
      | None =>
          if Ascii.eqb c squote then fixed_loop (S i) (Some squote) t
          else if Ascii.eqb c dquote then fixed_loop (S i) (Some dquote) t
          else if Ascii.eqb c "!" then (None, Some i)
          else fixed_loop (S i) None t
      end
  end.
(* scan_fixed_line, L129-213: continue_in_col, in_single_char, in_double_char, comment_col *)
Definition scan_fixed_line (line : str) (s d : bool) : res (option nat * bool * bool * option nat) :=
  let cont := fixed_continue line in
  if (s || d) && negb cont then Raise "ParseSyntaxError: Cannot start line in character context"
  else if s && d then Raise "ParseSyntaxError: both contexts"
  else
    let '(ci, cm, start) :=
      if cont then (Some 5, None, 6)
      else match fixed_comment line with
           | Some k => (None, Some k, length (rstrip line))
           | None => (None, None, 0)
           end in
    let '(q, cm2) := fixed_loop start (quote_of s d) (skipn start (rstrip line)) in
    Ok (ci, is_q squote q, is_q dquote q, match cm2 with Some k => Some k | None => cm end).

(* text[a:b] *)
Definition slice (a b : nat) (t : str) : str := skipn a (firstn b t).
(* pobj.write_line on the lines of the file, parse_object.py L143-150; None is line -1 *)
Definition write_at (lines : list str) (i : option nat) (l : str) : res (list str) :=
  match i with
  | Some k => if k <? length lines then Ok (list_set lines k l) else Raise "CCPPError: write_line"
  | None => Raise "CCPPError: write_line"
  end.
(* continue_col, in_schar, in_dchar, prev_line, prev_line_num, L359-364 *)
Record mst := mkM { m_cc : option nat; m_s : bool; m_d : bool; m_prev : option str; m_num : option nat }.
Definition mst0 : mst := mkM None false false None None.

(* one line of code in free form, L413-456 *)
Definition start_prev (co : option nat) (s d : bool) (prev : option str) (num : option nat) (cur : str) (i : nat) : option str * option nat :=
  match co, prev with
  | Some k, None => (Some (if s || d then firstn k cur else rstrip (firstn k cur)), Some i)
  | _, _ => (prev, num)
  end.
Definition merge_free (lines : list str) (i : nat) (cur : str) (m : mst) : res (list str * mst) :=
  r <- scan_free_line cur (is_some (m_cc m)) (m_s m) (m_d m) ;;
  let '(ci, co, s, d, cm) := r in
  w <- (if is_some (m_cc m) then
          match m_prev m with
          | None => Raise "ParseInternalError: No prev_line to continue"
          | Some pv =>
              let a := match ci with Some k => S k | None => 0 end in
              let b := match co with Some (S k) => S k | _ => length cur end in
              let pv' := pv ++ slice a b cur in
              l1 <- write_at lines (m_num m) pv' ;;
              l2 <- write_at l1 (Some i) [] ;;
              match co with
              | None => Ok (l2, None, None)
              | Some _ => Ok (l2, Some pv', m_num m)
              end
          end
        else Ok (lines, m_prev m, m_num m)) ;;
  let '(lines', prev, num) := w in
  let '(prev', num') := start_prev co s d prev num cur i in
  Ok (lines', mkM co s d prev' num').

(* one line of code in fixed form, L402-412 and L419-446 *)
Definition merge_fixed (lines : list str) (i : nat) (cur : str) (m : mst) : res (list str * mst) :=
  r <- scan_fixed_line cur (m_s m) (m_d m) ;;
  let '(ci, s, d, cm) := r in
  let '(prev, num) := match cm, ci with None, None => (None, Some i) | _, _ => (m_prev m, m_num m) end in
  match ci with
  | None => Ok (lines, mkM None s d prev num)
  | Some _ =>
      pv <- (match prev with
             | Some t => Ok t
             | None => match num with
                       | Some k => match nth_error lines k with Some t => Ok (firstn 72 t) | None => Raise "TypeError" end
                       | None => Raise "TypeError"
                       end
             end) ;;
      let pv' := rstrip (pv ++ slice 6 72 cur) in
      l1 <- write_at lines num pv' ;;
      l2 <- write_at l1 (Some i) [] ;;
      Ok (l2, mkM None s d (Some pv') num)
  end.

Section WithParser.
(* see PreprocModel: the text of an #if expression as a Python expression *)
Variable parse : str -> option (list expr).
Definition set_lines (p : pobj) (l : list str) : pobj := mkPO l (po_num p) (po_next p) (po_errs p) (po_msgs p) (po_max p).
(* the lines that are left alone, L366-379 *)
Definition rf_skip (fixed : bool) (cur : str) : bool :=
  match lstrip cur with
  | [] => true
  | c :: _ => (fixed && is_some (fixed_comment cur)) || Ascii.eqb c "!"
  end.
(* the while loop, L365-458; [fuel] bounds the number of lines.  The test for "!!" and "!>"
   in a False region (L394) is left out: such lines were skipped before. *)
Fixpoint rf_loop (fuel : nat) (fixed : bool) (p : pobj) (st : stack) (d : defs) (m : mst) (cur : option str) (num : nat) : res pobj :=
  match fuel with
  | 0 => Ok p
  | S fuel =>
      match cur with
      | None => Ok p
      | Some l =>
          if rf_skip fixed l then
            let '(p', (t, n)) := next_line p in rf_loop fuel fixed p' st d m t n
          else
            r <- process_line parse st d l ;;
            let '(isp, st', d') := r in
            if isp || negb (in_true_region st') then
              q <- write_line p num [] ;;
              let '(p', (t, n)) := next_line q in rf_loop fuel fixed p' st' d' m t n
            else
              w <- (if fixed then merge_fixed (po_lines p) num l m else merge_free (po_lines p) num l m) ;;
              let '(ls, m') := w in
              let '(p', (t, n)) := next_line (set_lines p ls) in rf_loop fuel fixed p' st' d' m' t n
      end
  end.
(* read_file, L337-459, on the lines of the file *)
Definition rf_file (fixed : bool) (d : defs) (file_lines : list str) : res pobj :=
  let '(p, (t, n)) := curr_line (po_new (map rstrip file_lines) 0) in
  rf_loop (S (length file_lines)) fixed p [] d mst0 t n.
End WithParser.

Example scan_ex1 : scan_free_line (L "int :: inde& ! oops") false false false = Ok (None, Some 11, false, false, Some 13). Proof. reflexivity. Qed.
Example scan_ex2 : scan_free_line (L "character(len=*), parameter :: foo = 'This is continue line& ") false false false = Ok (None, Some 59, true, false, None). Proof. reflexivity. Qed.
Example scan_ex3 : scan_free_line (L "  & line continued""") true false true = Ok (Some 2, None, false, false, None). Proof. reflexivity. Qed.
Example scan_ex4 : scan_fixed_line (L "    ! comment line") false false = Ok (None, false, false, Some 4). Proof. reflexivity. Qed.
Example scan_ex5 : scan_fixed_line (L "     ! not comment line") false false = Ok (Some 5, false, false, None). Proof. reflexivity. Qed.
Example scan_ex6 : scan_fixed_line (L "     & line continued""") false true = Ok (Some 5, false, false, None). Proof. reflexivity. Qed.
(* the lines after reading, without definitions *)
Definition rf_text fixed ls := match rf_file (fun _ => None) fixed [] ls with Ok p => Ok (po_lines p) | Raise m => Raise m end.
Example rf_ex1 : rf_text false [L "call foo(a, & ! x"; L ""; L "! note"; L "     b, 'it&"; L "  &s', &"; L " c) ! end"; L "x = 1"] =
  Ok [L "call foo(a,     b, 'its',  c) ! end"; L ""; L "! note"; L ""; L ""; L ""; L "x = 1"]. Proof. reflexivity. Qed.
