(* UnitModel.v: scripts/conversion_tools/unit_conversion.py (all functions) and
   VarCompatObj.units_to_string / _get_unit_convstrs
   (scripts/var_props.py L1148-L1213, L1354-L1380).
   Conversion formulas are kept as the template text the functions return; their
   meaning (an affine map over exact rationals) is read off that text. Rounding
   of Fortran reals is not modelled. *)
From Coq Require Export QArith.
From Verif Require Export PyStr.
Open Scope nat_scope.
Open Scope list_scope.

(* unit_conversion.py L18-L178: function name and returned template *)
Definition unit_functions : list (str * str) :=
  map (fun p => (L (fst p), L (snd p)))
  [ ("mm__to__m", "1.0E-3{kind}*{var}");                 (* L18 *)
    ("m__to__mm", "1.0E+3{kind}*{var}");                 (* L22 *)
    ("cm__to__m", "1.0E-2{kind}*{var}");                 (* L26 *)
    ("m__to__cm", "1.0E+2{kind}*{var}");                 (* L30 *)
    ("um__to__m", "1.0E-6{kind}*{var}");                 (* L34 *)
    ("m__to__um", "1.0E+6{kind}*{var}");                 (* L38 *)
    ("m__to__km", "1.0E-3{kind}*{var}");                 (* L42 *)
    ("km__to__m", "1.0E+3{kind}*{var}");                 (* L46 *)
    ("mm__to__km", "1.0E-6{kind}*{var}");                (* L50 *)
    ("km__to__mm", "1.0E+6{kind}*{var}");                (* L54 *)
    ("s__to__min", "{var}/6.0E+1{kind}");                (* L62 *)
    ("min__to__s", "6.0E+1{kind}*{var}");                (* L66 *)
    ("s__to__h", "{var}/3.6E+3{kind}");                  (* L70 *)
    ("h__to__s", "3.6E+3{kind}*{var}");                  (* L74 *)
    ("h__to__d", "{var}/2.4E+1{kind}");                  (* L78 *)
    ("d__to__h", "2.4E+1{kind}*{var}");                  (* L82 *)
    ("s__to__d", "{var}/8.64E+4{kind}");                 (* L86 *)
    ("d__to__s", "8.64E+4{kind}*{var}");                 (* L90 *)
    ("K__to__C", "{var}-273.15{kind}");                  (* L98 *)
    ("C__to__K", "{var}+273.15{kind}");                  (* L102 *)
    ("kg_kg_minus_1__to__g_kg_minus_1", "1.0E+3{kind}*{var}");   (* L110 *)
    ("g_kg_minus_1__to__kg_kg_minus_1", "1.0E-3{kind}*{var}");   (* L114 *)
    ("radian__to__degree", "57.295779513{kind}*{var}");  (* L122 *)
    ("degree__to__radian", "{var}/57.295779513{kind}");  (* L126 *)
    ("radian__to__degree_north", "57.295779513{kind}*{var}");    (* L130 *)
    ("degree_north__to__radian", "{var}/57.295779513{kind}");    (* L134 *)
    ("radian__to__degree_east", "57.295779513{kind}*{var}");     (* L138 *)
    ("degree_east__to__radian", "{var}/57.295779513{kind}");     (* L142 *)
    ("Pa__to__hPa", "1.0E-2{kind}*{var}");               (* L150 *)
    ("hPa__to__Pa", "1.0E+2{kind}*{var}");               (* L154 *)
    ("m_s_minus_1__to__km_h_minus_1", "3.6E+0{kind}*{var}");     (* L158 *)
    ("km_h_minus_1__to__m_s_minus_1", "{var}/3.6E+0{kind}");     (* L165 *)
    ("W_m_minus_2__to__erg_cm_minus_2_s_minus_1", "1.0E+3{kind}*{var}");   (* L172 *)
    ("erg_cm_minus_2_s_minus_1__to__W_m_minus_2", "1.0E-3{kind}*{var}") ]%string. (* L176 *)

(* getattr(unit_conversion, name)(): None stands for AttributeError *)
Fixpoint find_fun (t : list (str * str)) (n : str) : option str :=
  match t with
  | [] => None
  | (k, v) :: r => if str_eqb k n then Some v else find_fun r n
  end.

(* str.replace of one character *)
Definition replace_c (c : ascii) (by_ : str) (s : str) : str :=
  flat_map (fun x => if Ascii.eqb x c then by_ else [x]) s.

Definition py_kw : list str :=
  map L ["False";"None";"True";"and";"as";"assert";"async";"await";"break";"class";"continue";"def";"del";
         "elif";"else";"except";"finally";"for";"from";"global";"if";"import";"in";"is";"lambda";"nonlocal";
         "not";"or";"pass";"raise";"return";"try";"while";"with";"yield"]%string.
Definition isidentifier (s : str) : bool :=
  match s with c :: _ => negb (is_digit c) && forallb is_word s | [] => false end.

(* units_to_string, var_props.py L1354-L1380 *)
Definition units_to_string (units : str) : res str :=
  let s := replace_c "+" (L "_plus_") (replace_c "-" (L "_minus_") (replace_c " " (L "_") units)) in
  let s := if str_eqb s (L "1") then L "one" else s in
  if negb (isidentifier s) then Raise "ParseSyntaxError"
  else if existsb (str_eqb s) py_kw then Raise "ParseSyntaxError"
  else Ok s.

Definition to_sep : str := L "__to__".
(* _get_unit_convstrs, var_props.py L1148-L1213: forward and reverse template *)
Definition get_unit_convstrs (u1 u2 : str) : res (str * str) :=
  s1 <- units_to_string u1 ;;
  s2 <- units_to_string u2 ;;
  match find_fun unit_functions (s1 ++ to_sep ++ s2) with
  | None => Raise "ParseSyntaxError"
  | Some f =>
      match find_fun unit_functions (s2 ++ to_sep ++ s1) with
      | None => Raise "ParseSyntaxError"
      | Some r => Ok (f, r)
      end
  end.

(* ---- meaning of a template ---- *)
(* Fortran real constants: digits . digits with an optional exponent.  The result
   is the value and the rest of the text. *)
Definition digits (s : str) : Z * nat :=
  (fold_left (fun a c => (a * 10 + Z.of_nat (code c - 48))%Z) (takewhile is_digit s) 0%Z,
   length (takewhile is_digit s)).
Definition pow10 (e : Z) : Q :=
  match e with
  | Z0 => 1
  | Zpos p => inject_Z (Zpower_pos 10 p)
  | Zneg p => (/ inject_Z (Zpower_pos 10 p))%Q
  end.
Definition read_exponent (s : str) : Z * str :=
  match s with
  | e :: sg :: r =>
      if Ascii.eqb e "E" then
        let v := fst (digits r) in
        ((if Ascii.eqb sg "-" then - v else v)%Z, dropwhile is_digit r)
      else (0%Z, s)
  | _ => (0%Z, s)
  end.
Definition read_real (s : str) : option (Q * str) :=
  let '(ip, n) := digits s in
  match dropwhile is_digit s with
  | c :: r =>
      if Ascii.eqb c "." then
        let '(fp, m) := digits r in
        let '(e, rest) := read_exponent (dropwhile is_digit r) in
        Some (Qred ((inject_Z ip + inject_Z fp * pow10 (- Z.of_nat m)) * pow10 e), rest)
      else None
  | [] => None
  end.

(* coefficients (a, b) of the map x -> a*x + b a template denotes *)
Definition affine (t : str) : option (Q * Q) :=
  match after_prefix (L "{var}") t with
  | Some (op :: r) =>
      match read_real r with
      | Some (v, rest) =>
          if str_eqb rest (L "{kind}") then
            if Ascii.eqb op "/" then Some (Qred (/ v), 0)
            else if Ascii.eqb op "+" then Some (1, v)
            else if Ascii.eqb op "-" then Some (1, Qred (- v))
            else None
          else None
      | None => None
      end
  | _ =>
      match read_real t with
      | Some (v, rest) => if str_eqb rest (L "{kind}*{var}") then Some (v, 0) else None
      | None => None
      end
  end%Q.
(* value of a template applied to x; None if the text is not understood *)
Definition apply_template (t : str) (x : Q) : option Q :=
  match affine t with Some (a, b) => Some (a * x + b)%Q | None => None end.
