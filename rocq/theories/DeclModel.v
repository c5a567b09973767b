(* DeclModel.v: model of scripts/fortran_tools/parse_fortran.py, Fortran declarations:
   Ftype, FtypeCharacter, FtypeTypeDecl, ftype_factory, fortran_type_definition and
   parse_fortran_var_decl.  The result is the list of property dictionaries handed to
   FortranVar; the checks made by that constructor are left out (its checkers are modelled
   in CheckModel), as are the generated standard names, the empty units and the texts of
   messages.  Statements hold no newline (they come from single source lines). *)
From Verif Require Import PyStr CheckModel LineModel.
Open Scope nat_scope.
Open Scope list_scope.

(* ---- pieces of Python ---- *)
(* s.find(c); None stands for -1 *)
Fixpoint find_c (c : ascii) (s : str) : option nat :=
  match s with
  | [] => None
  | d :: t => if Ascii.eqb d c then Some 0 else match find_c c t with Some n => Some (S n) | None => None end
  end.
(* c in s *)
Definition has_c (c : ascii) (s : str) : bool := existsb (Ascii.eqb c) s.
(* s[0:s.index(c)] for c in s *)
Definition upto_c (c : ascii) (s : str) : str := takewhile (fun d => negb (Ascii.eqb d c)) s.
(* s[0:s.rindex(c)] for c in s *)
Definition upto_last (c : ascii) (s : str) : str := rev (tl (dropwhile (fun d => negb (Ascii.eqb d c)) (rev s))).
(* the two parts of s around the first "::" *)
Fixpoint cut_colons (s : str) : option (str * str) :=
  match s with
  | [] => None
  | c :: t =>
      match t with
      | d :: t' => if Ascii.eqb c ":" && Ascii.eqb d ":" then Some ([], t')
                   else match cut_colons t with Some (a, b) => Some (c :: a, b) | None => None end
      | [] => None
      end
  end.
(* elements[1] of s.split('::'), from the text after the first "::" *)
Definition second (b : str) : str := match cut_colons b with Some (x, _) => x | None => b end.
(* s[1:-1] *)
Definition inner (s : str) : str := removelast (tl s).
(* the text matched by a word up to case at the start of s, and the rest *)
Fixpoint after_ci (w s : str) : option (str * str) :=
  match w with
  | [] => Some ([], s)
  | c :: w' => match s with
               | d :: t => if Ascii.eqb (lower_c d) c then
                             match after_ci w' t with Some (a, b) => Some (d :: a, b) | None => None end
                           else None
               | [] => None
               end
  end.
(* the leading blanks of s, and the rest *)
Definition blanks (s : str) : str := takewhile is_space s.

(* ---- Ftype.__itype_re, L75-79, and type_match, L207-211 ---- *)
Definition dp_match (s : str) : option (str * str) :=
  match after_ci (L "double") s with
  | Some (a, r) => match after_ci (L "precision") (lstrip r) with
                   | Some (b, r') => Some (a ++ blanks r ++ b, r')
                   | None => None
                   end
  | None => None
  end.
Definition intrinsic_match (s : str) : option (str * str) :=
  match after_ci (L "integer") s with Some x => Some x | None =>
  match after_ci (L "real") s with Some x => Some x | None =>
  match after_ci (L "logical") s with Some x => Some x | None =>
  match dp_match s with Some x => Some x | None => after_ci (L "complex") s end end end end.
(* the class of characters in a kind selector *)
Definition kind_c (c : ascii) : bool := is_word c || Ascii.eqb c "," || Ascii.eqb c "=" || is_space c.
Definition kind_group (s : str) : option str :=
  match s with
  | c :: r => if Ascii.eqb c "(" then
                match takewhile kind_c r, dropwhile kind_c r with
                | _ :: _, d :: _ => if Ascii.eqb d ")" then Some (c :: takewhile kind_c r ++ [d]) else None
                | _, _ => None
                end
              else None
  | [] => None
  end.
(* groups 1 and 2, and the length of the match *)
Definition itype_match (line : str) : option (str * option str * nat) :=
  match intrinsic_match (strip line) with
  | Some (t, r) =>
      match kind_group (lstrip r) with
      | Some k => Some (t, Some k, length t + length (blanks r) + length k)
      | None => Some (t, None, length t + length (blanks r))
      end
  | None => None
  end.

(* ---- Ftype.parse_kind_selector, L153-205 ---- *)
(* __kind_re.search(kind), L81: the text after the first "kind" that is not at the end *)
Fixpoint kind_search (s : str) : option str :=
  match s with
  | [] => None
  | _ :: t => match after_ci (L "kind") s with
              | Some (_, c :: r) => Some (c :: r)
              | _ => kind_search t
              end
  end.
Definition quote_c (c : ascii) : bool := Ascii.eqb c "'" || Ascii.eqb c """".
Definition starts_c (c : ascii) (s : str) : bool := match s with d :: _ => Ascii.eqb d c | [] => false end.
(* the groups 1, 2, 4, 5 of the match, and the checks of L181-194: true if accepted *)
Definition kind_quotes_ok (r : str) : bool :=
  let r1 := lstrip r in
  let g1 := starts_c "(" r1 in
  let r3 := lstrip (if g1 then tl r1 else r1) in
  match r3 with
  | q :: _ :: r4 =>
      if quote_c q then
        let g4 := match r4 with d :: _ => quote_c d | [] => false end in
        let g5 := starts_c ")" (lstrip (if g4 then tl r4 else r4)) in
        g4 && starts_c q r4 && Bool.eqb g1 g5
      else true
  | _ => true
  end.
Definition parse_kind_selector (sel : str) : res str :=
  match sel with
  | [] => Raise "IndexError"
  | c :: _ =>
      let args := split_on "=" (if Ascii.eqb c "(" && Ascii.eqb (List.last sel " "%char) ")" then inner sel else sel) in
      kind <- match args with
              | [a] => Ok (strip a)
              | [a; b] => if str_eqb (lower (strip a)) (L "kind") then Ok (strip b) else Raise "ParseSyntaxError: kind_selector"
              | _ => Raise "ParseSyntaxError: kind_selector"
              end ;;
      match kind_search kind with
      | Some r => if kind_quotes_ok r then Ok kind else Raise "ParseSyntaxError: kind_selector"
      | None => if str_eqb (lower (firstn 4 kind)) (L "kind") then Raise "ParseSyntaxError: kind_selector" else Ok kind
      end
  end.

(* ---- type objects: typestr, kind(), whether it is an FtypeTypeDecl, type_len ---- *)
Record ftype := mkFT { ft_str : str; ft_kind : option str; ft_ddt : bool; ft_len : nat }.
(* Ftype.__init__ with line_in, L120-146; check_fortran_intrinsic accepts whatever the
   expression matched (intrinsic_checked, DeclProps.v), so its error branch is not written out *)
Definition ftype_new (line : str) : res (option ftype) :=
  match itype_match line with
  | None => Ok None
  | Some (t, None, n) => Ok (Some (mkFT t None false n))
  | Some (t, Some k, n) => kind <- parse_kind_selector (strip k) ;; Ok (Some (mkFT t (Some kind) false n))
  end.

(* ---- FtypeCharacter, L301-470 ---- *)
(* char_re, L346: the class of characters; an underscore is not one of them *)
Definition char_c (c : ascii) : bool :=
  is_alpha c || is_digit c || existsb (Ascii.eqb c) (L ",=*:'""()") || is_space c.
(* the parenthesised group runs to the last right parenthesis of the run *)
Definition char_group (s : str) : option str :=
  match s with
  | c :: r => if Ascii.eqb c "(" then
                match dropwhile (fun d => negb (Ascii.eqb d ")")) (rev (takewhile char_c r)) with
                | d :: e :: l => Some (c :: rev (d :: e :: l))
                | _ => None
                end
              else None
  | [] => None
  end.
(* oldchar_re, L348: the digits with the blanks after them, and the length of the match *)
Definition oldchar_match (s : str) : option (str * str * nat) :=
  match after_ci (L "character") s with
  | Some (t, r) =>
      match lstrip r with
      | c :: r1 => if Ascii.eqb c "*" then
                     let r2 := lstrip r1 in
                     match takewhile is_digit r2 with
                     | [] => None
                     | ds => let r3 := dropwhile is_digit r2 in
                             let g3 := ds ++ blanks r3 in
                             Some (t, g3, length t + length (blanks r) + 1 + length (blanks r1) + length g3)
                     end
                   else None
      | [] => None
      end
  | None => None
  end.
Definition char_match (s : str) : option (str * option str * nat) :=
  match after_ci (L "character") s with
  | Some (t, r) =>
      match char_group (lstrip r) with
      | Some k => Some (t, Some k, length t + length (blanks r) + length k)
      | None => Some (t, None, length t + length (blanks r))
      end
  | None => None
  end.
(* oldchartrail_re and chartrail_re, L347-349, matched against the rest of the line *)
Definition upper_after_blanks (s : str) : bool :=
  match blanks s, lstrip s with _ :: _, c :: _ => is_upper c | _, _ => false end.
Definition oldchartrail (s : str) : bool := starts_c "," (lstrip s) || upper_after_blanks s.
Definition chartrail (s : str) : bool := starts_c "," (lstrip s) || starts_c ":" (lstrip s) || upper_after_blanks s.
(* parse_len_token, L421-429, len_token_re, L350 *)
Definition is_id (s : str) : bool := match s with c :: t => is_alpha c && forallb is_word t | [] => false end.
Definition len_token (s : str) : res str :=
  if str_eqb s (L ":") || str_eqb s (L "*") || (negb (is_nil s) && forallb is_digit s) || is_id s
  then Ok s else Raise "ParseSyntaxError: length type-param-value".
(* parse_len_select, L431-452 *)
Definition len_select (s : str) (len_optional : bool) : res str :=
  match map strip (split_on "=" s) with
  | [a] => if len_optional then len_token a else Raise "ParseSyntaxError: length_selector"
  | [a; b] => if str_eqb (lower a) (L "len") then len_token b else Raise "ParseSyntaxError: length_selector"
  | _ => Raise "ParseSyntaxError: length_selector"
  end.
(* the length and the kind in the parentheses, L382-409 *)
Definition char_selector (group : str) : res (option str * option str) :=
  match map strip (split_on "," (inner group)) with
  | [a] => if str_eqb (lower (firstn 4 a)) (L "kind")
           then k <- parse_kind_selector a ;; Ok (None, Some k)
           else l <- len_select a true ;; Ok (Some l, None)
  | [a; b] => if str_eqb (lower (firstn 4 a)) (L "kind")
              then k <- parse_kind_selector a ;; l <- len_select b false ;; Ok (Some l, Some k)
              else l <- len_select a true ;; k <- parse_kind_selector b ;; Ok (Some l, Some k)
  | _ => Raise "ParseSyntaxError: char_selector"
  end.
(* Ftype.__init__ with kind_in, L101-111 *)
Definition given_kind (k : option str) : res (option str) :=
  match k with
  | None => Ok None
  | Some [] => Raise "IndexError"
  | Some (c :: t) => if Ascii.eqb c "(" then x <- parse_kind_selector (c :: t) ;; Ok (Some x) else Ok (Some (c :: t))
  end.
(* kind(), L454-463 *)
Definition char_kind (clen kind : option str) : str :=
  L "len=" ++ match clen with Some l => l | None => L "1" end ++
  match kind with Some k => L ", kind=" ++ k | None => [] end.
(* __init__, L363-419 *)
Definition fchar_new (line : str) : res (option ftype) :=
  let s := strip line in
  match oldchar_match s with
  | Some (t, g3, n) =>
      if oldchartrail (skipn n s) then Ok (Some (mkFT t (Some (char_kind (Some g3) None)) false n))
      else Raise "ParseSyntaxError: character declaration"
  | None =>
      match char_match s with
      | None => Ok None
      | Some (t, Some g, n) =>
          lk <- char_selector g ;; k <- given_kind (snd lk) ;;
          Ok (Some (mkFT t (Some (char_kind (fst lk) k)) false n))
      | Some (t, None, n) =>
          if chartrail (skipn n s) then Ok (Some (mkFT t (Some (char_kind None None)) false n))
          else Raise "ParseSyntaxError: character declaration"
      end
  end.

(* ---- FtypeTypeDecl, L474-571 ---- *)
(* __type_decl_re__ and __class_decl_re__, L496-500: the name and the length of the match *)
Definition type_decl (word : str) (must_close : bool) (s : str) : option (str * nat) :=
  match after_ci word s with
  | Some (t, r) =>
      match lstrip r with
      | c :: r1 =>
          if Ascii.eqb c "(" then
            match lstrip r1 with
            | d :: _ =>
                if is_alpha d then
                  let name := takewhile is_word (lstrip r1) in
                  let r2 := dropwhile is_word (lstrip r1) in
                  let n := length t + length (blanks r) + 1 + length (blanks r1) + length name + length (blanks r2) in
                  if starts_c ")" (lstrip r2) then Some (name, n + 1) else if must_close then None else Some (name, n)
                else None
            | [] => None
            end
          else None
      | [] => None
      end
  | None => None
  end.
Definition type_match (line : str) : option (str * nat) := type_decl (L "type") false (strip line).
Definition class_match (line : str) : option (str * nat) := type_decl (L "class") true (strip line).
(* type_def_line, L539-571, and fortran_type_definition, L643-649: name, properties, parameters *)
Definition type_def_line (line : str) : res (option (str * option (list str) * option str)) :=
  match type_match line with
  | Some _ => Ok None
  | None =>
      let s := strip (if has_c "!" line then upto_c "!" line else line) in
      if str_eqb (firstn 4 (lower s)) (L "type") then
        np <- match cut_colons s with
              | Some (a, b) => Ok (strip (second b), Some (map strip (tl (split_on "," a))))
              | None => if has_c " " s then Ok (strip (tl (dropwhile (fun d => negb (Ascii.eqb d " ")) s)), None) else Raise "IndexError"
              end ;;
        let '(name, props) := np in
        match split_on "(" name with
        | a :: b :: _ => Ok (Some (strip a, props, Some ("("%char :: rstrip b)))
        | _ => Ok (Some (name, props, None))
        end
      else Ok None
  end.

(* ---- ftype_factory, L574-640 ---- *)
(* the loop of L594-602: the position after the matching parenthesis *)
Fixpoint close_pos (s : str) (depth pos : nat) : nat :=
  match depth with
  | 0 => pos
  | S d => match s with
           | [] => pos
           | c :: t => close_pos t (if Ascii.eqb c "(" then S depth else if Ascii.eqb c ")" then d else depth) (S pos)
           end
  end.
Definition cut_line (line : str) : str :=
  match find_c "(" line, find_c "," line with
  | Some p, Some c => if c <? p then firstn c line else firstn (close_pos (skipn (p + 1) line) 1 (p + 1) + 1) line
  | Some p, None => firstn (close_pos (skipn (p + 1) line) 1 (p + 1) + 1) line
  | None, Some c => firstn c line
  | None, None => line
  end.
Definition ftype_factory (line0 : str) : res (option ftype) :=
  let line := cut_line (if has_c "!" line0 then rstrip (upto_c "!" line0) else line0) in
  i <- ftype_new line ;;
  match i with
  | Some t => Ok (Some t)
  | None =>
      c <- fchar_new line ;;
      match c with
      | Some t => Ok (Some t)
      | None =>
          match type_match line with
          | Some (n, k) => Ok (Some (mkFT n (Some n) true k))
          | None => match class_match line with
                    | Some (n, k) => Ok (Some (mkFT n (Some n) true k))
                    | None => Ok None
                    end
          end
      end
  end.

(* ---- Ftype.parse_attr_specs, L236-263; __attr_spec, L83-87 ---- *)
Definition attr_specs : list str := map L
  ["allocatable"; "asynchronous"; "dimension"; "external"; "intent"; "intrinsic"; "bind"; "optional"; "parameter";
   "pointer"; "private"; "protected"; "public"; "save"; "target"; "value"; "volatile"]%string.
Fixpoint check_attrs (l : list str) : res (list str) :=
  match l with
  | [] => Ok []
  | p :: r =>
      let prop := lower (strip p) in
      let pval := if has_c "(" prop then strip (upto_c "(" prop) else prop in
      if existsb (str_eqb pval) attr_specs then ps <- check_attrs r ;; Ok (prop :: ps) else Raise "ParseSyntaxError: attr_spec"
  end.
Definition parse_attr_specs (propstring : str) : res (list str) :=
  let s := strip propstring in
  l <- reassemble_parens (match s with c :: t => if Ascii.eqb c "," then lstrip t else s | [] => s end) ;;
  check_attrs l.

(* ---- parse_fortran_var_decl, L652-815 ---- *)
Record dvar := mkDV { dv_name : str; dv_type : str; dv_ddt : bool; dv_kind : option str;
                      dv_optional : bool; dv_allocatable : bool; dv_intent : option str; dv_dims : str }.
(* the loop over the attributes, L728-748: intent and dimensions; [scheme] is ptype ==
   'scheme', [logger] that there is a logger *)
Fixpoint scan_attrs (scheme logger : bool) (l : list str) (intent dims : option str) : res (option str * option str) :=
  match l with
  | [] => Ok (intent, dims)
  | p :: r =>
      if str_eqb (firstn 6 p) (L "intent") then
        if scheme then scan_attrs scheme logger r (Some (strip (inner (strip (skipn 6 p))))) dims
        else if logger then scan_attrs scheme logger r intent dims
        else Raise "ParseSyntaxError: intent not allowed"
      else if str_eqb (firstn 9 p) (L "dimension") then scan_attrs scheme logger r intent (Some (strip (skipn 9 p)))
      else scan_attrs scheme logger r intent dims
  end.
(* the name and the dimensions of one entity, L760-785; [prev] is the variable dimspec as
   the previous entity left it, None if it is unbound *)
Definition entity (logger : bool) (prev : option (option str)) (var0 : str) : res (str * option (option str)) :=
  let var := if has_c "=" var0 then rstrip (upto_last "=" var0) else var0 in
  if has_c "(" var then
    let name := strip (upto_c "(" var) in
    be <- check_balanced_paren var 0 false ;;
    match be with
    | (Some b, Some e) => Ok (name, Some (Some (slice var b (e + 1))))
    | _ => if logger then Ok (name, prev) else Raise "ParseSyntaxError: variable declaration"
    end
  else Ok (strip var, Some None).
Definition make_var (t : ftype) (props : list str) (intent dims : option str) (name : str) (dimspec : option str) : dvar :=
  mkDV name (ft_str t) (ft_ddt t) (ft_kind t) (existsb (str_eqb (L "optional")) props) (existsb (str_eqb (L "allocatable")) props)
       intent (match dimspec with Some d => d | None => match dims with Some d => d | None => L "()" end end).
(* L757-810 *)
Fixpoint entities (logger : bool) (t : ftype) (props : list str) (intent dims : option str)
                  (prev : option (option str)) (l : list str) : res (list dvar) :=
  match l with
  | [] => Ok []
  | v :: r =>
      nd <- entity logger prev v ;;
      match snd nd with
      | None => Raise "UnboundLocalError"
      | Some d => vs <- entities logger t props intent dims (Some d) r ;; Ok (make_var t props intent dims (fst nd) d :: vs)
      end
  end.
Definition parse_fortran_var_decl (scheme logger : bool) (line : str) : res (list dvar) :=
  let s0 := strip line in
  let s := if has_c "!" s0 then rstrip (upto_c "!" s0) else s0 in
  o <- ftype_factory s ;;
  match o with
  | None => Ok []
  | Some t =>
      let varprops := strip (skipn (ft_len t) s) in
      match cut_colons varprops with
      | Some (a, b) =>
          props <- parse_attr_specs (strip a) ;;
          id <- scan_attrs scheme logger props None None ;;
          vl <- reassemble_parens (strip (second b)) ;;
          entities logger t props (fst id) (snd id) None vl
      | None => vl <- reassemble_parens varprops ;; entities logger t [] None None None vl
      end
  end.
