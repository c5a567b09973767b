(* CommonModel.v: the string functions of scripts/common.py. *)
From Verif Require Import PyStr DictModel.
Open Scope nat_scope.
Open Scope list_scope.

(* encode_container, L126-138 *)
Definition encode_container (args : list str) : res str :=
  match args with
  | [m; s; r] => Ok (L "MODULE_" ++ m ++ L " SCHEME_" ++ s ++ L " SUBROUTINE_" ++ r)
  | [m; t] => Ok (L "MODULE_" ++ m ++ L " TYPE_" ++ t)
  | [m] => Ok (L "MODULE_" ++ m)
  | _ => Raise "Exception"
  end.

(* item[:item.find('_')] and item[item.find('_')+1:]; find gives -1 when there is no
   underscore, so that the first slice drops the last character and the second is whole *)
Fixpoint cut_us (s : str) : option (str * str) :=
  match s with
  | [] => None
  | c :: t => if Ascii.eqb c "_" then Some ([], t)
              else match cut_us t with Some (a, b) => Some (c :: a, b) | None => None end
  end.
Definition cut_item (s : str) : str * str :=
  match cut_us s with Some p => p | None => (removelast s, s) end.

(* decode_container, L140-149 *)
Definition decode_container (c : str) : res str :=
  let items := split_on " " c in
  if length items <=? 3
  then Ok (join (L " ") (map (fun i => let '(a, b) := cut_item i in a ++ L " " ++ b) items))
  else Raise "Exception".
(* decode_container_as_dict, L151-163 *)
Definition decode_container_as_dict (c : str) : res (list (str * str)) :=
  let items := split_on " " c in
  if length items <=? 3
  then Ok (fold_left (fun d i => let '(a, b) := cut_item i in set a b d) items [])
  else Raise "Exception".

(* split_var_name_and_array_reference, L106-124: the loop runs from the last character;
   [s] is what is left of var_name, reversed, [r] the part already passed *)
Fixpoint split_back (s : str) (r : str) (p : Z) : option (str * str) :=
  match s with
  | [] => None
  | c :: t =>
      let p' := if Ascii.eqb c ")" then (p + 1)%Z else if Ascii.eqb c "(" then (p - 1)%Z else p in
      if (p' =? 0)%Z then Some (rev t, c :: r) else split_back t (c :: r) p'
  end.
Definition split_var_name (s : str) : option (str * str) := split_back (rev s) [] 0.

(* str.replace of one character *)
Definition replace_c (c : ascii) (by_ : str) (s : str) : str :=
  flat_map (fun x => if Ascii.eqb x c then by_ else [x]) s.
(* escape_tex, L165-170 *)
Definition escape_tex (s : str) : str :=
  replace_c "&" (L "\&") (replace_c "_" (L "\_") (replace_c "%" (L "\%") s)).

(* keyword.iskeyword of Python 3.7 and later *)
Definition py_keywords : list str := map L
  ["False"; "None"; "True"; "and"; "as"; "assert"; "async"; "await"; "break"; "class"; "continue"; "def"; "del"; "elif";
   "else"; "except"; "finally"; "for"; "from"; "global"; "if"; "import"; "in"; "is"; "lambda"; "nonlocal"; "not"; "or";
   "pass"; "raise"; "return"; "try"; "while"; "with"; "yield"]%string.
Definition is_keyword (s : str) : bool := existsb (str_eqb s) py_keywords.
(* re.match("[_A-Za-z][_a-zA-Z0-9]*$", s): $ also matches before a newline at the end *)
Fixpoint word_to_end (s : str) : bool :=
  match s with
  | [] => true
  | c :: t => if is_word c then word_to_end t else Ascii.eqb c nl && (match t with [] => true | _ => false end)
  end.
Definition ident_match (s : str) : bool :=
  match s with c :: t => (is_alpha c || Ascii.eqb c "_") && word_to_end t | [] => false end.
(* string_to_python_identifier, L176-197 *)
Definition to_identifier (s0 : str) : res str :=
  let s1 := replace_c "+" (L "_plus_") (replace_c "-" (L "_minus_") (replace_c "." (L "_p_") (replace_c " " (L "_") s0))) in
  let s := if str_eqb s1 (L "1") then L "one" else s1 in
  if ident_match s && negb (is_keyword s) then Ok s else Raise "Exception".
