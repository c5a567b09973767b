(* PreprocSpec.v: what a preprocessor is expected to do, independent of the
   region stack. *)
From Verif Require Export PreprocModel.

(* A source text with properly nested conditionals.  Every constructor carries
   the directive lines as they appear in the text. *)
Inductive prog :=
| PNil
| PLine (l : str) (rest : prog)                              (* any other line *)
| PCond (ifl : str) (body : prog) (alts : chain) (rest : prog)
with chain :=
| CEnd (endl : str)                                          (* #endif *)
| CElif (l : str) (body : prog) (alts : chain)               (* #elif ... *)
| CElse (l : str) (body : prog) (endl : str).                (* #else ... #endif *)

Scheme prog_ind2 := Induction for prog Sort Prop
with chain_ind2 := Induction for chain Sort Prop.
Combined Scheme prog_chain_ind from prog_ind2, chain_ind2.

(* the text *)
Fixpoint lines_of (p : prog) : list str :=
  match p with
  | PNil => []
  | PLine l r => l :: lines_of r
  | PCond i b c r => i :: lines_of b ++ lines_of_chain c ++ lines_of r
  end
with lines_of_chain (c : chain) : list str :=
  match c with
  | CEnd e => [e]
  | CElif l b c' => l :: lines_of b ++ lines_of_chain c'
  | CElse l b e => l :: lines_of b ++ [e]
  end.

(* directive lines are the directives they are meant to be *)
Definition dir_of (l : str) : option directive :=
  if is_preproc_line l then Some (classify (strip l)) else None.
Definition is_if (o : option directive) : Prop :=
  match o with Some (DIfdef _) | Some (DIfndef _) | Some DIf => True | _ => False end.
Definition is_plain (o : option directive) : Prop :=
  match o with None | Some DOther | Some (DDefine _ _) | Some (DUndef _) => True | _ => False end.
Fixpoint wf (p : prog) : Prop :=
  match p with
  | PNil => True
  | PLine l r => is_plain (dir_of l) /\ wf r
  | PCond i b c r => is_if (dir_of i) /\ wf b /\ wf_chain c /\ wf r
  end
with wf_chain (c : chain) : Prop :=
  match c with
  | CEnd e => dir_of e = Some DEndif
  | CElif l b c' => dir_of l = Some DElif /\ wf b /\ wf_chain c'
  | CElse l b e => dir_of l = Some DElse /\ wf b /\ dir_of e = Some DEndif
  end.

Section Ref.
Variable parse : str -> option (list expr).

(* truth of the condition on an #if, #ifdef, #ifndef or #elif line *)
Definition cond_value (d : defs) (l : str) : res bool :=
  match classify (strip l) with
  | DIfdef a => Ok (is_def d a)
  | DIfndef a => Ok (negb (is_def d a))
  | _ => r <- process_if_line parse (strip l) d ;; Ok (fst r)
  end.
(* effect of an ordinary line in an active / inactive place *)
Definition plain_out (act : bool) (l : str) : str :=
  if skip_line l then l else
  match dir_of l with Some _ => [] | None => if act then l else [] end.
Definition plain_defs (act : bool) (d : defs) (l : str) : defs :=
  if act then
    match dir_of l with
    | Some (DDefine k v) => dset d k (VStr v)
    | Some (DUndef k) => ddel d k
    | _ => d
    end
  else d.

(* Reference meaning: in every chain, the first branch whose condition holds is
   processed and no other; conditions after it, or in places that are not
   processed, are not looked at. *)
Definition cond_if (look : bool) (d : defs) (l : str) : res bool :=
  if look then cond_value d l else Ok false.
Fixpoint ref_prog (act : bool) (d : defs) (p : prog) : res (list str * defs) :=
  match p with
  | PNil => Ok ([], d)
  | PLine l r =>
      x <- ref_prog act (plain_defs act d l) r ;; Ok (plain_out act l :: fst x, snd x)
  | PCond i b c r =>
      v <- cond_if act d i ;;
      x <- ref_prog (act && v) d b ;;
      y <- ref_chain act v (snd x) c ;;
      z <- ref_prog act (snd y) r ;;
      Ok ([] :: fst x ++ fst y ++ fst z, snd z)
  end
with ref_chain (act taken : bool) (d : defs) (c : chain) : res (list str * defs) :=
  match c with
  | CEnd _ => Ok ([[]], d)
  | CElif l b c' =>
      v <- cond_if (act && negb taken) d l ;;
      x <- ref_prog (act && negb taken && v) d b ;;
      y <- ref_chain act (taken || v) (snd x) c' ;;
      Ok ([] :: fst x ++ fst y, snd y)
  | CElse _ b _ =>
      x <- ref_prog (act && negb taken) d b ;; Ok ([] :: fst x ++ [[]], snd x)
  end.

(* What the code computes (proved in PreprocProofs.v): an #elif or #else branch
   is processed whenever the #if condition was false and its own condition
   holds, regardless of the other #elif branches; every condition is evaluated. *)
Fixpoint code_prog (act : bool) (d : defs) (p : prog) : res (list str * defs) :=
  match p with
  | PNil => Ok ([], d)
  | PLine l r =>
      x <- code_prog act (plain_defs act d l) r ;; Ok (plain_out act l :: fst x, snd x)
  | PCond i b c r =>
      v <- cond_value d i ;;
      x <- code_prog (act && v) d b ;;
      y <- code_chain act v (snd x) c ;;
      z <- code_prog act (snd y) r ;;
      Ok ([] :: fst x ++ fst y ++ fst z, snd z)
  end
with code_chain (act first : bool) (d : defs) (c : chain) : res (list str * defs) :=
  match c with
  | CEnd _ => Ok ([[]], d)
  | CElif l b c' =>
      v <- cond_value d l ;;
      x <- code_prog (act && negb first && v) d b ;;
      y <- code_chain act first (snd x) c' ;;
      Ok ([] :: fst x ++ fst y, snd y)
  | CElse _ b _ =>
      x <- code_prog (act && negb first) d b ;; Ok ([] :: fst x ++ [[]], snd x)
  end.
End Ref.

(* Chains with at most one alternative after the #if, at every depth *)
Fixpoint one_alt (p : prog) : Prop :=
  match p with
  | PNil => True
  | PLine _ r => one_alt r
  | PCond _ b c r => one_alt b /\ one_alt_chain c /\ one_alt r
  end
with one_alt_chain (c : chain) : Prop :=
  match c with
  | CEnd _ => True
  | CElif _ b (CEnd _) => one_alt b
  | CElif _ _ _ => False
  | CElse _ b _ => one_alt b
  end.

(* C conditions over "defined", as text, as Python text and as Python tree *)
Inductive cexpr :=
| CDefP (n : str)            (* defined(n) *)
| CDefS (n : str)            (* defined n *)
| CNotDef (n : str)          (* !defined(n) *)
| CNot (e : cexpr)           (* (! e) *)
| CAnd (a b : cexpr)         (* (a && b) *)
| COr (a b : cexpr).         (* (a || b) *)
Fixpoint c_text (e : cexpr) : str :=
  match e with
  | CDefP n => L "defined(" ++ n ++ L ")"
  | CDefS n => L "(defined " ++ n ++ L ")"
  | CNotDef n => L "!defined(" ++ n ++ L ")"
  | CNot e => L "(! " ++ c_text e ++ L ")"
  | CAnd a b => L "(" ++ c_text a ++ L " && " ++ c_text b ++ L ")"
  | COr a b => L "(" ++ c_text a ++ L " || " ++ c_text b ++ L ")"
  end.
Fixpoint py_text (e : cexpr) : str :=
  match e with
  | CDefP n => L "defined(" ++ n ++ L ")"
  | CDefS n => L "(defined (" ++ n ++ L "))"
  | CNotDef n => L "notdefined(" ++ n ++ L ")"
  | CNot e => L "(not " ++ py_text e ++ L ")"
  | CAnd a b => L "(" ++ py_text a ++ L " and " ++ py_text b ++ L ")"
  | COr a b => L "(" ++ py_text a ++ L " or " ++ py_text b ++ L ")"
  end.
Fixpoint py_tree (e : cexpr) : expr :=
  match e with
  | CDefP n | CDefS n => ECall (L "defined") [EName n]
  | CNotDef n => ECall (L "notdefined") [EName n]
  | CNot e => EUnary true (py_tree e)
  | CAnd a b => EBoolOp true [py_tree a; py_tree b]
  | COr a b => EBoolOp false [py_tree a; py_tree b]
  end.
Fixpoint c_value (d : defs) (e : cexpr) : bool :=
  match e with
  | CDefP n | CDefS n => is_def d n
  | CNotDef n => negb (is_def d n)
  | CNot e => negb (c_value d e)
  | CAnd a b => c_value d a && c_value d b
  | COr a b => c_value d a || c_value d b
  end.
(* names that C and Python both accept as identifiers *)
Definition py_keywords : list str :=
  map L ["False";"None";"True";"and";"as";"assert";"async";"await";"break";"class";"continue";"def";"del";
         "elif";"else";"except";"finally";"for";"from";"global";"if";"import";"in";"is";"lambda";"nonlocal";
         "not";"or";"pass";"raise";"return";"try";"while";"with";"yield"]%string.
Definition ident (n : str) : bool :=
  match n with
  | c :: _ => negb (is_digit c) && forallb is_word n && negb (existsb (str_eqb n) py_keywords)
  | [] => false
  end.
Fixpoint names_ok (e : cexpr) : Prop :=
  match e with
  | CDefP n | CDefS n | CNotDef n => ident n = true
  | CNot e => names_ok e
  | CAnd a b | COr a b => names_ok a /\ names_ok b
  end.
