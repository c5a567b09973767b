(* PreprocModel.v: scripts/parse_tools/preprocess.py, and the part of
   scripts/fortran_tools/parse_fortran_file.py:read_file (L343-L397) that drops
   lines according to the preprocessor state.
   Text is ASCII (PyStr.v).  Python's own expression parser (ast.parse, L177) is
   an explicit parameter [parse] of the functions that need it. *)
From Verif Require Export PyStr.
Open Scope Z_scope.
Open Scope list_scope.

(* Python values that occur: dictionary values are str or None
   (framework_env.py L113-L129, preprocess.py L360), int or bool in results.
   Simplified: float literals are not modelled. *)
Inductive pyval := VNone | VBool (b : bool) | VInt (z : Z) | VStr (s : str).

(* preproc_defs: a Python dict; first match is the entry *)
Definition defs := list (str * pyval).
Fixpoint lookup (d : defs) (k : str) : option pyval :=
  match d with
  | [] => None
  | (k', v) :: t => if str_eqb k' k then Some v else lookup t k
  end.
Definition is_def (d : defs) (k : str) : bool :=
  match lookup d k with Some _ => true | None => false end.
(* preproc_defs[k] = v *)
Definition dset (d : defs) (k : str) (v : pyval) : defs := (k, v) :: d.
(* del preproc_defs[k] *)
Definition ddel (d : defs) (k : str) : defs := List.filter (fun p => negb (str_eqb (fst p) k)) d.

(* Python syntax trees as far as preproc_item_value inspects them (L44-L130) *)
Inductive cmpop := OEq | ONe | OGt | OGe | OLt | OLe | OOther.
Inductive expr :=
| ECall (f : str) (args : list expr)
| EBoolOp (is_and : bool) (values : list expr)    (* ast.BoolOp: two or more values *)
| EUnary (is_not : bool) (e : expr)
| ECompare (left : expr) (rest : list (cmpop * expr))
| EName (id : str)
| ENum (z : Z)
| EOther.

(* int(v); TypeError for None, ValueError (None here) for other text *)
Definition to_int (v : pyval) : res (option Z) :=
  match v with
  | VNone => Raise "TypeError"
  | VBool b => Ok (Some (if b then 1 else 0))
  | VInt z => Ok (Some z)
  | VStr s => Ok (py_int s)
  end.

(* preproc_bool, L24-L36 *)
Definition preproc_bool (v : pyval) : res bool :=
  match v with
  | VBool b => Ok b
  | _ => i <- to_int v ;;
         match i with
         | Some z => Ok (negb (z =? 0))
         | None => Ok (match v with VStr s => negb (str_eqb s (L "0")) | _ => true end)
         end
  end.

(* Python == between these values *)
Definition as_int (v : pyval) : option Z :=
  match v with VBool b => Some (if b then 1 else 0) | VInt z => Some z | _ => None end.
Definition py_eqb (a b : pyval) : bool :=
  match a, b with
  | VNone, VNone => true
  | VStr x, VStr y => str_eqb x y
  | _, _ => match as_int a, as_int b with Some x, Some y => x =? y | _, _ => false end
  end.

(* one comparison step, L94-L117; a raising comparison raises even when value is
   already False, because both operands are evaluated first *)
Definition compare1 (o : cmpop) (value : bool) (lv rv : pyval) : res bool :=
  match o with
  | OEq => Ok (value && py_eqb lv rv)
  | ONe => Ok (value && negb (py_eqb lv rv))
  | _ =>
      il <- to_int lv ;;
      match il with
      | None => Ok false
      | Some l =>
          ir <- to_int rv ;;
          match ir with
          | None => Ok false
          | Some r =>
              match o with
              | OGt => Ok (value && (r <? l))
              | OGe => Ok (value && (r <=? l))
              | OLt => Ok (value && (l <? r))
              | OLe => Ok (value && (l <=? r))
              | _ => Ok false     (* PreprocError is a ValueError: caught at L115 *)
              end
          end
      end
  end.

(* preproc_item_value, L40-L132.  [fuel] bounds the recursion depth; the entry
   point below supplies the size of the expression. *)
Fixpoint item_value (fuel : nat) (d : defs) (e : expr) : res pyval :=
  match fuel with
  | O => Raise "fuel"
  | S fuel =>
    match e with
    | ECall f args =>                                            (* L46-L67 *)
        if str_eqb f (L "defined") then
          match args with
          | [EName s] => Ok (VBool (is_def d s))
          | [_] => Raise "AttributeError"
          | _ => Raise "PreprocError"
          end
        else if str_eqb f (L "notdefined") then
          match args with
          | [EName s] => Ok (VBool (negb (is_def d s)))
          | [_] => Raise "AttributeError"
          | _ => Raise "PreprocError"
          end
        else Raise "PreprocError"
    | EBoolOp is_and vals =>                                     (* L68-L78 *)
        match vals with
        | v0 :: v1 :: _ =>
            l <- item_value fuel d v0 ;;
            r <- item_value fuel d v1 ;;
            lb <- preproc_bool l ;;
            if is_and then
              if lb then rb <- preproc_bool r ;; Ok (VBool rb) else Ok (VBool false)
            else
              if lb then Ok (VBool true) else rb <- preproc_bool r ;; Ok (VBool rb)
        | _ => Raise "IndexError"
        end
    | EUnary is_not e1 =>                                        (* L79-L86 *)
        v <- item_value fuel d e1 ;;
        if is_not then b <- preproc_bool v ;; Ok (VBool (negb b)) else Raise "PreprocError"
    | ECompare e1 rest =>                                        (* L87-L119 *)
        lv <- item_value fuel d e1 ;;
        b <- (fix loop (value : bool) (r : list (cmpop * expr)) : res bool :=
                match r with
                | [] => Ok value
                | (o, e2) :: r' =>
                    rv <- item_value fuel d e2 ;;
                    v' <- compare1 o value lv rv ;;
                    loop v' r'
                end) true rest ;;
        Ok (VBool b)
    | EName id =>                                                (* L120-L126 *)
        match lookup d id with Some v => Ok v | None => Ok (VStr id) end
    | ENum z => Ok (VInt z)                                      (* L127-L128 *)
    | EOther => Raise "PreprocError"                             (* L129-L130 *)
    end
  end.

(* depth of an expression: enough fuel *)
Fixpoint depth (e : expr) : nat :=
  match e with
  | EBoolOp _ vals => S (fold_right (fun x n => Nat.max (depth x) n) O vals)
  | EUnary _ e1 => S (depth e1)
  | ECompare e1 rest => S (Nat.max (depth e1) (fold_right (fun x n => Nat.max (depth (snd x)) n) O rest))
  | _ => 1%nat
  end.
Definition expr_value (d : defs) (e : expr) : res pyval := item_value (depth e) d e.

(* __defined_re__ (L13): defined, blanks, a word; returns the word and the rest *)
Definition match_defined (s : str) : option (str * str) :=
  match after_prefix (L "defined") s with
  | Some (c :: r) =>
      if is_space c then
        let r' := dropwhile is_space r in
        match takewhile is_word r' with
        | [] => None
        | w => Some (w, dropwhile is_word r')
        end
      else None
  | _ => None
  end.

(* the translation loop of parse_preproc_line, L138-L175; [inchar] is the
   current quote character.  [fuel] is the length of the text. *)
Fixpoint translate (fuel : nat) (inchar : option ascii) (s : str) : str :=
  match fuel, s with
  | O, _ => []
  | _, [] => []
  | S fuel, c :: t =>
      if Ascii.eqb c """" || Ascii.eqb c "'" then
        let inchar' := match inchar with
                       | None => Some c
                       | Some q => if Ascii.eqb q c then None else inchar
                       end in
        c :: translate fuel inchar' t
      else match inchar with
      | Some _ => c :: translate fuel inchar t
      | None =>
          match after_prefix (L "&&") s with
          | Some r => L "and" ++ translate fuel None r
          | None =>
          match after_prefix (L "||") s with
          | Some r => L "or" ++ translate fuel None r
          | None =>
          if Ascii.eqb c "!" then L "not" ++ translate fuel None t
          else match match_defined s with
               | Some (w, r) => L "defined (" ++ w ++ L ")" ++ translate fuel None r
               | None => c :: translate fuel None t
               end
          end end
      end
  end.
Definition translate_line (s : str) : str := translate (length s) None s.

Section WithParser.
(* ast.parse(text).body with each statement an expression statement; None is
   SyntaxError (L176-L190).  Statements that are not expressions: EOther. *)
Variable parse : str -> option (list expr).

(* parse_preproc_line, L136-L191: value and success flag *)
Definition parse_line (line : str) (d : defs) : res (bool * bool) :=
  match parse (translate_line line) with
  | None => Ok (false, false)
  | Some [e] => v <- expr_value d e ;; b <- preproc_bool v ;; Ok (b, true)
  | Some _ => Ok (false, false)
  end.

(* regular expression pieces: "#\s*" then a literal, L198-L206 *)
Definition hash_lit (lit : str) (s : str) : option str :=
  match s with
  | c :: t => if Ascii.eqb c "#" then after_prefix lit (dropwhile is_space t) else None
  | [] => None
  end.
(* (.star): to the end of the line *)
Definition to_eol (s : str) : str := takewhile (fun c => negb (Ascii.eqb c nl)) s.
(* lit\s+(.star) *)
Definition lit_ws_rest (lit : str) (s : str) : option str :=
  match hash_lit lit s with
  | Some (c :: r) => if is_space c then Some (to_eol (dropwhile is_space r)) else None
  | _ => None
  end.
(* ifelif_re L202: if or elif, one blank, rest *)
Definition match_ifelif (s : str) : option str :=
  let try_lit lit := match hash_lit lit s with
                     | Some (c :: r) => if is_space c then Some (to_eol r) else None
                     | _ => None
                     end in
  match try_lit (L "elif") with
  | Some r => Some r
  | None => try_lit (L "if")
  end.

(* process_if_line, L212-L289 *)
Definition process_if_line (s : str) (d : defs) : res (bool * bool) :=
  match match_ifelif s with
  | None => Ok (false, false)
  | Some r => parse_line (strip r) d
  end.

(* Which directive a stripped line is: the cascade of L298-L369 *)
Inductive directive :=
| DIfdef (arg : str) | DIfndef (arg : str) | DIf | DElif | DElse | DEndif
| DDefine (k v : str) | DUndef (k : str) | DOther.
Definition word_then (lit : str) (s : str) : option (str * str) :=
  match hash_lit lit s with
  | Some (c :: r) =>
      if is_space c then
        let r' := dropwhile is_space r in
        match takewhile is_word r' with [] => None | w => Some (w, dropwhile is_word r') end
      else None
  | _ => None
  end.
Definition classify (s : str) : directive :=
  match lit_ws_rest (L "ifdef") s with
  | Some a => DIfdef a
  | None =>
  match lit_ws_rest (L "ifndef") s with
  | Some a => DIfndef a
  | None =>
  match hash_lit (L "if") s with
  | Some (c :: r) => if Ascii.eqb c "d" || Ascii.eqb c "n" then DOther else DIf
  | Some [] => DOther
  | None =>
  match hash_lit (L "elif") s with
  | Some (c :: r) => if is_space c then DElif else DOther
  | Some [] => DOther
  | None =>
  match hash_lit (L "else") s with
  | Some _ => DElse
  | None =>
  match hash_lit (L "endif") s with
  | Some _ => DEndif
  | None =>
  match word_then (L "define") s with
  | Some (w, c :: r) =>
      if is_space c then DDefine w (takewhile (fun x => negb (is_space x)) (dropwhile is_space r))
      else DOther
  | Some (_, []) => DOther
  | None =>
  match word_then (L "undef") s with
  | Some (w, _) => DUndef w
  | None => DOther
  end end end end end end end end.

(* The region stack; innermost region first.  A region is [valid when entered,
   currently valid]. *)
Definition stack := list (bool * bool).
(* in_true_region, L400-L409 *)
Definition in_true_region (st : stack) : bool := forallb snd st.
(* enter_region, L374-L377 *)
Definition enter_region (st : stack) (valid : bool) : stack := (valid, valid) :: st.
(* exit_region, L379-L385 *)
Definition exit_region (st : stack) : res stack :=
  match st with [] => Raise "ParseSyntaxError" | _ :: r => Ok r end.
(* modify_region, L387-L398; pop from an empty list raises IndexError *)
Definition modify_region (st : stack) (valid : bool) : res stack :=
  match st with
  | [] => Raise "IndexError"
  | (entered, _) :: r => if entered then Ok ((entered, false) :: r) else Ok ((entered, valid) :: r)
  end.

(* is_preproc_line, L411-L414, for a line that is not blank *)
Definition is_preproc_line (line : str) : bool :=
  match lstrip line with c :: _ => Ascii.eqb c "#" | [] => false end.

(* process_line, L291-L372, for a dictionary of definitions *)
Definition process_line (st : stack) (d : defs) (line : str) : res (bool * stack * defs) :=
  if is_preproc_line line then
    let sline := strip line in
    match classify sline with
    | DIfdef a => Ok (true, enter_region st (is_def d a), d)
    | DIfndef a => Ok (true, enter_region st (negb (is_def d a)), d)
    | DIf => r <- process_if_line sline d ;; Ok (true, enter_region st (fst r), d)
    | DElif => r <- process_if_line sline d ;; st' <- modify_region st (fst r) ;; Ok (true, st', d)
    | DElse => st' <- modify_region st true ;; Ok (true, st', d)
    | DEndif => st' <- exit_region st ;; Ok (true, st', d)
    | DDefine k v => Ok (true, st, if in_true_region st then dset d k (VStr v) else d)
    | DUndef k => Ok (true, st, if in_true_region st then ddel d k else d)
    | DOther => Ok (true, st, d)
    end
  else Ok (false, st, d).

(* read_file, parse_fortran_file.py L343-L397: one line.  Blank lines and
   comment lines are skipped (left as they are); preprocessor lines and lines in
   a False region are replaced by "".  Continuation merging (L398-L440) is a
   separate concern and not modelled here; fixed-form comment lines neither. *)
Definition skip_line (line : str) : bool :=
  match lstrip line with [] => true | c :: _ => Ascii.eqb c "!" end.
Definition read_step (st : stack) (d : defs) (line : str) : res (str * stack * defs) :=
  if skip_line line then Ok (line, st, d)
  else
    r <- process_line st d line ;;
    let '(isp, st', d') := r in
    if isp then Ok ([], st', d')
    else if in_true_region st' then Ok (line, st', d') else Ok ([], st', d').
Fixpoint read_lines (st : stack) (d : defs) (lines : list str) : res (list str * stack * defs) :=
  match lines with
  | [] => Ok ([], st, d)
  | l :: t =>
      r <- read_step st d l ;;
      let '(o, st', d') := r in
      r2 <- read_lines st' d' t ;;
      let '(os, st2, d2) := r2 in
      Ok (o :: os, st2, d2)
  end.
(* read_file: starts with an empty stack; nothing is checked at the end *)
Definition read_file (d : defs) (lines : list str) : res (list str) :=
  r <- read_lines [] d lines ;; Ok (fst (fst r)).

End WithParser.
