(* FWModel.v: scripts/fortran_tools/fortran_write.py, class FortranWriter: indent
   (L62-68), find_best_break (L72-89), _in_quote (L92-120), write (L125-249).
   The result is the list of lines written and how the call ended.
   Simplified: the indent level is natural; text is ASCII (PyStr.v); the copyright,
   header and footer texts are ordinary calls of write and are not spelled out. *)
From Verif Require Import PyStr.
Open Scope nat_scope.
Open Scope list_scope.

(* settings of the object, L253-286: spaces per level, extra spaces on a continuation
   line, target and maximal line length *)
Record fw := mkFW { fw_indent : nat; fw_cont : nat; fw_fill : nat; fw_max : nat }.
(* L23-29 *)
Definition fw_default : fw := mkFW 3 5 97 130.
(* __max_comment_start = ceil(line_fill * 3 / 4), L277 *)
Definition fw_comment_start (w : fw) : nat := (fw_fill w * 3 + 3) / 4.

Definition blank_str (n : nat) : str := List.repeat " "%char n.
(* indent, L62-68 *)
Definition indent_len (w : fw) (level : nat) (cont : bool) : nat :=
  fw_indent w * level + (if cont then fw_cont w else 0).

(* find_best_break, L72-89: positions are natural; a position -1 never qualifies *)
Definition max_below (last : nat) (choices : list nat) : option nat :=
  fold_right (fun x acc => if (0 <? x) && (x <? last)
                           then Some (match acc with Some y => Nat.max x y | None => x end) else acc) None choices.
Definition find_best_break (w : fw) (choices : list nat) : nat :=
  match max_below (fw_fill w) choices with
  | Some b => if (fw_max w <? b) && (fw_fill w <? fw_max w)
              then match max_below (fw_max w) choices with Some b' => b' | None => S (fw_max w) end else b
  | None => if fw_fill w <? fw_max w
            then match max_below (fw_max w) choices with Some b' => b' | None => S (fw_max w) end
            else S (fw_max w)
  end.

(* _in_quote, L92-120 *)
Fixpoint quote_from (q : option ascii) (s : str) : option ascii :=
  match s with
  | [] => q
  | c :: t =>
      match q with
      | Some k => quote_from (if Ascii.eqb c k then None else q) t
      | None => quote_from (if Ascii.eqb c "'" || Ascii.eqb c """" then Some c else None) t
      end
  end.
Definition in_quote (s : str) : bool := match quote_from None s with Some _ => true | None => false end.

(* the while loop collecting break points, L151-191: spaces, commas, and whether
   in_comment was set; [i] is sptr, [s] is the rest of outstr *)
Fixpoint fw_scan (cstart : nat) (is_comment : bool) (i : nat) (q : option ascii) (s : str)
  : list nat * list nat * bool :=
  match s with
  | [] => ([], [], false)
  | c :: t =>
      match q with
      | Some k => fw_scan cstart is_comment (S i) (if Ascii.eqb c k then None else q) t
      | None =>
          if Ascii.eqb c "'" || Ascii.eqb c """" then fw_scan cstart is_comment (S i) (Some c) t
          else if Ascii.eqb c "!" then
            let '(sp, cm, _) := if negb is_comment && (cstart <=? i) then ([], [], true)
                                else fw_scan cstart is_comment (S i) None t in
            (match i with S k => k :: sp | 0 => sp end, cm, true)
          else
            let '(sp, cm, ic) := fw_scan cstart is_comment (S i) None t in
            if Ascii.eqb c " " then (i :: sp, cm, ic)
            else if Ascii.eqb c "," then (sp, i :: cm, ic)
            else if startswith (L "//") s then (sp, S i :: cm, ic)
            else (sp, cm, ic)
      end
  end.

(* L193-203: the first significant character of a comment line; None: IndexError *)
Fixpoint first_signif (i : nat) (s : str) : option nat :=
  match s with
  | [] => None
  | c :: t => if Ascii.eqb c "!" || Ascii.eqb c " " then first_signif (S i) t else Some i
  end.

Definition is_comment_text (s : str) : bool := match s with c :: _ => Ascii.eqb c "!" | [] => false end.
Definition is_nil {A} (l : list A) : bool := match l with [] => true | _ => false end.
Definition starts_amp (s : str) : bool := match s with c :: _ => Ascii.eqb c "&" | [] => false end.

(* line_continue: False, True or '&' *)
Inductive lcont := LNo | LYes | LAmp.
Definition truthy (l : lcont) : bool := match l with LNo => false | _ => true end.

(* the break position and line_continue, L204-229; [ostmt] is the stripped statement,
   [outstr] the line, [ind] the length of the indentation.
   min(spaces) < first_space: filtering is the same in either case. *)
Definition fw_break (w : fw) (ind : nat) (ostmt outstr : str) : res (nat * lcont * bool) :=
  let isc := is_comment_text ostmt in
  let '(spaces, commas, ic) := fw_scan (fw_comment_start w) isc ind None (skipn ind outstr) in
  spaces <- (if isc then
               match first_signif (S ind) (skipn (S ind) outstr) with
               | None => Raise "IndexError"
               | Some fs => Ok (List.filter (fun x => fs <=? x) spaces)
               end
             else Ok spaces) ;;
  let b1 := find_best_break w spaces in
  let b2 := if fw_fill w <=? b1 then Nat.min b1 (find_best_break w commas) else b1 in
  let ugly := fw_max w <=? b2 in
  let best := if ugly then fw_max w - 1 else b2 in
  lc <- (if best <? length outstr then
           if in_quote (firstn (S best) outstr) then Ok LAmp
           else match lstrip (skipn (S best) outstr) with
                | [] => Raise "IndexError"
                | c :: _ => Ok (if Ascii.eqb c "!" then LNo else LYes)
                end
         else Ok LNo) ;;
  Ok (best, if ic || isc then LNo else lc, ic).

(* write, L138-249, for a statement without newline; [fuel] bounds the recursion.
   Lines written before an exception stay written. *)
Fixpoint fw_write (fuel : nat) (w : fw) (stmt : str) (level : nat) (cont : bool) : list str * res unit :=
  match fuel with
  | 0 => ([], Raise "RecursionError")
  | S fuel =>
      let ind := indent_len w level cont in
      let ostmt := strip stmt in
      let outstr := if negb (is_nil ostmt) && negb (starts_amp ostmt) then blank_str ind ++ ostmt else ostmt in
      if fw_fill w <? length outstr then
        match fw_break w ind ostmt outstr with
        | Raise e => ([], Raise e)
        | Ok (best, lc, ic) =>
            let fill := if truthy lc then blank_str (fw_fill w - best) ++ L "&" else [] in
            let outline := rstrip (firstn (S best) outstr ++ fill) in
            if best =? 0 then ([outline], Raise "ValueError")
            else
              let st1 := (if ic then L "! " else []) ++ skipn (S best) outstr in
              let st2 := match lc with LAmp => if is_nil st1 then st1 else "&"%char :: st1 | _ => st1 end in
              let '(ls, r) := fw_write fuel w st2 level (truthy lc) in
              (outline :: ls, r)
        end
      else ([outstr], Ok tt)
  end.

(* write, L130-137: a list of statements, or one with newlines, is written one by one;
   an exception ends the writing *)
Fixpoint fw_write_all (fuel : nat) (w : fw) (stmts : list str) (level : nat) (cont : bool) : list str * res unit :=
  match stmts with
  | [] => ([], Ok tt)
  | s :: r =>
      match fw_write fuel w s level cont with
      | (ls, Ok _) => let '(ls2, e) := fw_write_all fuel w r level cont in (ls ++ ls2, e)
      | (ls, Raise e) => (ls, Raise e)
      end
  end.
Definition fw_write_text (fuel : nat) (w : fw) (text : str) (level : nat) : list str * res unit :=
  fw_write_all fuel w (split_on nl text) level false.

Example fw_ex1 : fw_write 9 fw_default (L "subroutine foo(long_argument1, long_argument2, long_argument3, long_argument4, long_argument5)") 2 false =
  ([L "      subroutine foo(long_argument1, long_argument2, long_argument3, long_argument4,              &";
    L "           long_argument5)"], Ok tt).
Proof. vm_compute. reflexivity. Qed.
