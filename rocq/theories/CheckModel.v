(* CheckModel.v: model of scripts/parse_tools/parse_checkers.py.
   Strings are ASCII.  A checker returns Ok (Some v) for the accepted value, Ok None
   where the code returns None, Raise where it raises.  Left out: check_molar_mass
   (floats), the text of messages. *)
From Verif Require Import Regex PhaseModel.
Open Scope nat_scope.
Open Scope list_scope.

Definition fail (error : bool) (msg : string) : res (option str) := if error then Raise msg else Ok None.

(* ---- check_units, L15-61 ---- *)
(* _NON_LEADING_ZERO_NUM, L15: one of [1-9], then digits *)
Definition nlz_re : re := Cat (Cls (in_range 49 57)) (Star (Cls is_digit)).
(* _CHAR_WITH_UNDERSCORE, L16 *)
Definition letters_re : re := plus (Cls is_alpha).
Definition char_under_re : re := plus (Cat letters_re (Cat (ch "_") letters_re)).
(* _UNIT_EXPONENT, _UNIT_REGEX, L17-19 *)
Definition exponent_re : re := Alt (Cat (ch "-") nlz_re) nlz_re.
Definition unit_re : re := Cat letters_re (opt exponent_re).
(* _UNITS_REGEX, L20; the "$" is modelled where it is used *)
Definition units_re : re :=
  Alt char_under_re (Alt (Cat unit_re (Star (Cat (Cls is_space) unit_re))) (ch "1")).
Definition check_units (s : str) (error : bool) : res (option str) :=
  if re_dollar units_re (strip s) then Ok (Some s) else fail error "CCPPError: not a valid unit".

(* ---- check_cf_standard_name, L162-200; CF_ID, L159, is FORTRAN_ID up to case ---- *)
Definition check_cf_standard_name (s : str) (error : bool) : res (option str) :=
  match s with
  | [] => Raise "CCPPError: CCPP Standard Name cannot be blank"
  | _ => if re_dollar fortran_id_re s then Ok (Some (lower s)) else fail error "CCPPError: not a valid CCPP Standard Name"
  end.

(* ---- check_fortran_id, L236-274 ---- *)
Definition check_fortran_id (s : str) (error : bool) (max_len : nat) : res (option str) :=
  if re_dollar fortran_id_re s then
    if (0 <? max_len) && (max_len <? length s) then fail error "CCPPError: too long" else Ok (Some s)
  else fail error "CCPPError: not a valid Fortran identifier".

(* ---- check_balanced_paren, L1000-1066; None stands for -1 ---- *)
Fixpoint paren_loop (s : str) (index : nat) (depth : Z) (inchar : option ascii) (begin : option nat) : option nat * option nat :=
  match s with
  | [] => (begin, None)
  | c :: t =>
      if Ascii.eqb c """" || Ascii.eqb c "'" then
        match inchar with
        | Some q => if Ascii.eqb q c then paren_loop t (S index) depth None begin else paren_loop t (S index) depth inchar begin
        | None => paren_loop t (S index) depth (Some c) begin
        end
      else match inchar with
      | Some _ => paren_loop t (S index) depth inchar begin
      | None =>
          if Ascii.eqb c "(" then
            let begin' := if Z.eqb depth 0 then Some index else begin in
            if Z.eqb (depth + 1) 0 then (begin', None)
            else paren_loop t (S index) (depth + 1)%Z inchar begin'
          else if Ascii.eqb c ")" then
            if Z.eqb (depth - 1) 0 then (begin, Some index)
            else paren_loop t (S index) (depth - 1)%Z inchar begin
          else paren_loop t (S index) depth inchar begin
      end
  end.
Definition check_balanced_paren (s : str) (start : nat) (error : bool) : res (option nat * option nat) :=
  let r := paren_loop (skipn start s) start 0 None None in
  match r with
  | (Some _, None) => if error then Raise "CCPPError: Unbalanced parenthesis" else Ok r
  | _ => Ok r
  end.

(* ---- fortran_list_match, L278-306; None stands for None ---- *)
Definition slice (s : str) (i j : nat) : str := skipn i (firstn j s).
Definition is_nil (s : str) : bool := match s with [] => true | _ => false end.
Definition fortran_list_match (s : str) : res (option (list str)) :=
  r <- check_balanced_paren s 0 false ;;
  match r with
  | (Some b, Some e) =>
      if b <? e then
        let items := map strip (split_on "," (slice s (b + 1) e)) in
        if (1 <? length items) && existsb is_nil items then Ok None else Ok (Some items)
      else Ok None
  | _ => Ok None
  end.

(* ---- check_fortran_ref, L310-395 ---- *)
(* __FORT_DIM, L215 *)
Definition dim_re : re := Alt fortran_id_re (Alt (ch ":") (plus (Cls is_digit))).
Definition ws_re : re := Star (Cls is_space).
(* __REPEAT_DIM, L216 *)
Definition repeat_dim_re : re := Cat (ch ",") (Cat ws_re (Cat dim_re ws_re)).
(* FORTRAN_SCALAR_REF, L217-221 *)
Definition scalar_ref_re : re :=
  Cat fortran_id_re (Cat ws_re (Cat (ch "(") (Cat ws_re (Cat dim_re (Cat ws_re (Cat (upto 6 repeat_dim_re) (ch ")"))))))).
(* s.rstrip(c) *)
Definition rstrip_c (c : ascii) (s : str) : str := rev (dropwhile (Ascii.eqb c) (rev s)).
(* the tokens whose length is checked, L381-383 *)
Definition ref_tokens (s : str) : list str :=
  let tokens := split_on "(" (rstrip_c ")" (strip s)) in
  strip (nth 0 tokens []) :: map strip (split_on "," (nth 1 tokens [])).
Definition check_fortran_ref (s : str) (error : bool) (max_len : nat) : res (option str) :=
  r <- check_fortran_id s false max_len ;;
  match r with
  | Some _ => Ok (Some s)
  | None =>
      if re_dollar scalar_ref_re s then
        if (0 <? max_len) && existsb (fun t : str => max_len <? length t) (ref_tokens s) then fail error "CCPPError: too long" else Ok (Some s)
      else fail error "CCPPError: not a valid Fortran scalar reference"
  end.

(* ---- check_fortran_intrinsic, L459-505 ---- *)
Definition intrinsic_types : list str :=
  map L ["integer"; "real"; "logical"; "complex"; "double precision"; "character"]%string.
(* FORTRAN_DP_RE, L229 *)
Definition dp_re : re := Cat (wordi (L "double")) (Cat ws_re (wordi (L "precision"))).
Definition check_fortran_intrinsic (s : str) (error : bool) : res (option str) :=
  let t := lower (strip s) in
  if existsb (str_eqb t) intrinsic_types || (str_eqb (firstn 6 t) (L "double") && re_prefix dp_re t)
  then Ok (Some s) else fail error "CCPPError: not a valid Fortran type".
(* check_fortran_type, L509-554; [ddts] is _REGISTERED_FORTRAN_DDT_NAMES *)
Definition check_fortran_type (ddts : list str) (s : str) (error : bool) : res (option str) :=
  r <- check_fortran_intrinsic s false ;;
  match r with
  | Some _ => Ok (Some s)
  | None => if existsb (str_eqb s) ddts then Ok (Some s) else fail error "CCPPError: not a valid Fortran type"
  end.
(* register_fortran_ddt_name, L1086-1088 *)
Definition register_ddt (ddts : list str) (n : str) : list str := if existsb (str_eqb n) ddts then ddts else ddts ++ [n].

(* ---- check_fortran_literal, L558-719 ---- *)
(* float(text) of Python succeeds; text without underscores *)
Definition digits1 : re := plus (Cls is_digit).
Definition sign_re : re := opt (Alt (ch "+") (ch "-")).
Definition exp_re : re := opt (Cat (Cls (fun c => Ascii.eqb (lower_c c) "e")) (Cat sign_re digits1)).
Definition float_re : re :=
  Cat sign_re (Alt (Cat (Alt (Cat digits1 (opt (Cat (ch ".") (Star (Cls is_digit))))) (Cat (ch ".") digits1)) exp_re)
                   (Alt (wordi (L "inf")) (Alt (wordi (L "infinity")) (wordi (L "nan"))))).
Definition py_float_ok (s : str) : bool := re_full float_re (strip s).
Definition is_some {A} (o : option A) : bool := match o with Some _ => true | None => false end.
(* L699-709: every even part empty, odd number of parts *)
Fixpoint even_empty (l : list str) : bool :=
  match l with
  | [] => true
  | x :: [] => is_nil x
  | x :: _ :: r => is_nil x && even_empty r
  end.
(* every type but complex, L664-716 *)
Definition simple_literal (value vtype kind : str) : res bool :=
  let vparts := split_on "_" (strip value) in
  let '(val, vkind) :=
    if str_eqb vtype (L "character") then
      if 1 <? length vparts then (last vparts [], join (L "_") (removelast vparts)) else (hd [] vparts, [])
    else (hd [] vparts, join (L "_") (tl vparts)) in
  if negb (str_eqb vkind (lower kind)) then
    Ok false (* every test below is skipped; an unknown type is not reported *)
  else if str_eqb vtype (L "integer") then Ok (is_some (py_int val))
  else if str_eqb vtype (L "real") then Ok (existsb (Ascii.eqb ".") val && py_float_ok val)
  else if str_eqb vtype (L "logical") then Ok (str_eqb (upper val) (L ".TRUE.") || str_eqb (upper val) (L ".FALSE."))
  else if str_eqb vtype (L "character") then
    match val with
    | [] => Raise "IndexError"
    | sep :: _ => let cparts := split_on sep val in Ok (Nat.odd (length cparts) && even_empty cparts)
    end
  else Raise "ParseInternalError: not a Fortran intrinsic type".
Definition lit_type (typestr : str) : str :=
  if re_prefix dp_re (strip typestr) then L "real" else lower typestr.
Definition check_fortran_literal (value typestr kind : str) : res bool :=
  let vtype := lit_type typestr in
  if str_eqb vtype (L "complex") then
    match split_on "," (strip value) with
    | [a; b] =>
        let da := existsb (Ascii.eqb ".") a in
        let db := existsb (Ascii.eqb ".") b in
        let tp := if da && db then L "real" else L "integer" in
        let valid := negb (xorb da db) in
        match a, rev b with
        | [], _ => Raise "IndexError"
        | p :: a', rb =>
            if Ascii.eqb p "(" then
              match rb with
              | [] => Raise "IndexError"
              | q :: rb' =>
                  if Ascii.eqb q ")" then
                    if valid then
                      v1 <- simple_literal a' tp kind ;;
                      if v1 then simple_literal (rev rb') tp kind else Ok false
                    else Ok false
                  else Ok false
              end
            else Ok false
        end
    | _ => Ok false
    end
  else simple_literal value vtype kind.

(* ---- check_local_name, L399-455; prop_dict's protected, type and kind ---- *)
Definition check_local_name (s : str) (protected : bool) (vtype kind : str) (error : bool) (max_len : nat) : res (option str) :=
  lit <- (if protected && negb (is_nil vtype) then check_fortran_literal s vtype kind else Ok false) ;;
  if lit then Ok (Some s) else check_fortran_ref s error max_len.

(* ---- check_default_value, L721-777: prop_dict with a type and perhaps a kind ---- *)
Definition check_default_value (s vtype : str) (kind : option str) (error : bool) : res (option str) :=
  let k := match kind with Some x => strip (lower x) | None => [] end in
  v <- check_fortran_literal s (strip (lower vtype)) k ;;
  if v then Ok (Some s) else fail error "CCPPError: not a valid Fortran literal".

(* ---- check_dimensions, L63-152 ---- *)
(* one component, L119-140 *)
Definition check_dim_part (error : bool) (max_len : nat) (t : str) : res bool :=
  if is_some (py_int t) then Ok true
  else
    r <- check_fortran_id t error max_len ;;
    if is_some r then Ok true
    else if str_eqb (firstn 4 (lower (strip t))) (L "size") then
      p <- check_balanced_paren (skipn 4 t) 0 false ;;
      match p with (Some _, Some _) => Ok true | _ => Raise "CCPPError: Invalid dimension component" end
    else Ok false.
Fixpoint check_dim_parts (error : bool) (max_len : nat) (l : list str) : res bool :=
  match l with
  | [] => Ok true
  | t :: r => v <- check_dim_part error max_len t ;; if v then check_dim_parts error max_len r else Ok false
  end.
Definition dim_parts (item : str) : list str := map strip (List.filter (fun x => negb (is_nil x)) (split_on ":" item)).
Fixpoint check_dims_loop (error : bool) (max_len : nat) (l : list str) (ok : bool) : res bool :=
  match l with
  | [] => Ok ok
  | item :: r =>
      if 3 <? length (split_on ":" item) then if error then Raise "CCPPError: invalid dimension range" else Ok false
      else
        v <- check_dim_parts error max_len (dim_parts item) ;;
        if v then check_dims_loop error max_len r ok
        else if error then Raise "CCPPError: invalid dimension name" else check_dims_loop error max_len r false
  end.
Definition check_dimensions (l : list str) (error : bool) (max_len : nat) : res (option (list str)) :=
  ok <- check_dims_loop error max_len l true ;; Ok (if ok then Some l else None).

(* ---- check_diagnostic_fixed, L786-843, and check_diagnostic_id, L865-955; [other] is the
   value of the other diagnostic attribute, empty if absent ---- *)
Definition check_diagnostic_fixed (s other : str) (error : bool) : res (option str) :=
  if negb (is_nil other) then fail error "CCPPError: cannot have both"
  else r <- check_fortran_id s false 0 ;;
       match r with Some _ => Ok (Some s) | None => fail error "CCPPError: not a valid fixed diagnostic name" end.
(* _DIAG_RE, L859-862 *)
Definition diag_re : re :=
  Cat (opt fortran_id_re)
      (opt (Cat (Alt (word (L "${process}")) (word (L "${scheme_name}"))) (opt (plus (Cls is_word))))).
Definition check_diagnostic_id (s other : str) (error : bool) : res (option str) :=
  if negb (is_nil other) then fail error "CCPPError: cannot have both"
  else if re_dollar diag_re s then Ok (Some s) else fail error "CCPPError: not a valid diagnostic_name value".
