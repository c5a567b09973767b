(* DeclSpec.v: what a Fortran declaration says: the text of a declaration, piece by piece,
   and the variables it declares.  Independent of the parser. *)
From Verif Require Import PyStr LineSpec.
Open Scope nat_scope.
Open Scope list_scope.

Definition blank (w : str) : Prop := forallb is_space w = true.
(* a Fortran identifier *)
Definition identifier (s : str) : Prop := exists c t, s = c :: t /\ is_alpha c = true /\ forallb is_word t = true.
(* every parenthesis has its partner *)
Definition balanced (s : str) : Prop := paren_sum s = 0%Z /\ forall p q, s = p ++ q -> (0 <= paren_sum p)%Z.
(* as many opening as closing parentheses, and no comma outside parentheses *)
Definition one_item (s : str) : Prop := paren_sum s = 0%Z /\ forall p q, s = p ++ ","%char :: q -> paren_sum p <> 0%Z.
Definition within (x s : str) : Prop := exists a b, s = a ++ x ++ b.
(* written in any mixture of cases *)
Definition spells (text word : str) : Prop := lower text = word.

(* ---- the type at the head of a declaration: text, type name, kind, derived type? ---- *)
Definition intrinsic_name (t : str) : Prop :=
  spells t (L "integer") \/ spells t (L "real") \/ spells t (L "logical") \/ spells t (L "complex") \/
  exists d w p, t = d ++ w ++ p /\ spells d (L "double") /\ blank w /\ spells p (L "precision").
(* a name or a number, not the word kind *)
Definition kind_value (k : str) : Prop := k <> [] /\ forallb is_word k = true /\ ~ spells k (L "kind").
(* a length: *, :, a number or a name without underscores *)
Definition length_value (l : str) : Prop :=
  l = L "*" \/ l = L ":" \/ (l <> [] /\ forallb is_digit l = true) \/ (identifier l /\ ~ In "_"%char l).
Inductive head : str -> str -> option str -> bool -> Prop :=
| h_plain t : intrinsic_name t -> head t t None false
| h_kind t w a k b : intrinsic_name t -> blank w -> blank a -> blank b -> kind_value k ->
    head (t ++ w ++ L "(" ++ a ++ k ++ b ++ L ")") t (Some k) false
| h_kind_eq t w a kw b c k d : intrinsic_name t -> blank w -> blank a -> blank b -> blank c -> blank d ->
    spells kw (L "kind") -> kind_value k ->
    head (t ++ w ++ L "(" ++ a ++ kw ++ b ++ L "=" ++ c ++ k ++ d ++ L ")") t (Some k) false
| h_derived t w a n b : spells t (L "type") \/ spells t (L "class") -> blank w -> blank a -> blank b -> identifier n ->
    head (t ++ w ++ L "(" ++ a ++ n ++ b ++ L ")") n (Some n) true
| h_len t w a l b : spells t (L "character") -> blank w -> blank a -> blank b -> length_value l ->
    ~ spells (firstn 4 l) (L "kind") ->
    head (t ++ w ++ L "(" ++ a ++ l ++ b ++ L ")") t (Some (L "len=" ++ l)) false
| h_len_eq t w a le b c l d : spells t (L "character") -> blank w -> blank a -> blank b -> blank c -> blank d ->
    spells le (L "len") -> length_value l ->
    head (t ++ w ++ L "(" ++ a ++ le ++ b ++ L "=" ++ c ++ l ++ d ++ L ")") t (Some (L "len=" ++ l)) false.

(* ---- attributes: [blanks] name [blanks (argument)] blanks ---- *)
Record attr := mkAttr { a_before : str; a_name : str; a_gap : str; a_arg : option str; a_after : str }.
Definition attr_text (a : attr) : str :=
  a_before a ++ a_name a ++ match a_arg a with Some x => a_gap a ++ L "(" ++ x ++ L ")" | None => [] end ++ a_after a.
Definition attributes : list str := map L
  ["allocatable"; "asynchronous"; "dimension"; "external"; "intent"; "intrinsic"; "bind"; "optional"; "parameter";
   "pointer"; "private"; "protected"; "public"; "save"; "target"; "value"; "volatile"]%string.
Definition named (n : string) (a : attr) : bool := str_eqb (lower (a_name a)) (L n).
Definition attr_ok (a : attr) : Prop :=
  blank (a_before a) /\ blank (a_gap a) /\ blank (a_after a) /\ In (lower (a_name a)) attributes /\
  (forall x, a_arg a = Some x -> balanced x) /\
  (named "intent" a = true \/ named "dimension" a = true -> a_arg a <> None).
Definition attrs_text (l : list attr) : str := List.concat (map (fun a => L "," ++ attr_text a) l).
(* the argument of the last attribute with this name *)
Definition last_arg (n : string) (l : list attr) : option str :=
  match List.find (named n) (rev l) with Some a => a_arg a | None => None end.
Definition is_set (n : string) (l : list attr) : Prop := exists a, In a l /\ named n a = true /\ a_arg a = None.

(* ---- entities: blanks name [blanks (dimensions)] blanks [= initial value] ---- *)
Record ent := mkEnt { e_before : str; e_name : str; e_gap : str; e_dims : option str; e_after : str; e_init : option str }.
Definition ent_text (e : ent) : str :=
  e_before e ++ e_name e ++ match e_dims e with Some d => e_gap e ++ L "(" ++ d ++ L ")" | None => [] end ++
  e_after e ++ match e_init e with Some i => L "=" ++ i | None => [] end.
Definition ent_ok (e : ent) : Prop :=
  blank (e_before e) /\ blank (e_gap e) /\ blank (e_after e) /\ identifier (e_name e) /\
  (forall d, e_dims e = Some d -> balanced d /\ ~ In "="%char d /\ ~ In "'"%char d /\ ~ In """"%char d) /\
  (forall i, e_init e = Some i -> one_item i /\ ~ In "="%char i).
Definition ents_text (l : list ent) : str := join (L ",") (map ent_text l).

(* ---- declarations ---- *)
(* type, attributes, double colon, entities, possibly a comment; the double colon may be
   left out if there are no attributes and blanks follow the type *)
Definition comment (c : str) : Prop := c = [] \/ exists t, c = L "!" ++ t.
Definition declaration (h : str) (al : list attr) (el : list ent) (line : str) : Prop :=
  exists w0 w1 w2 w3 colons c,
    line = w0 ++ h ++ w1 ++ attrs_text al ++ colons ++ w2 ++ ents_text el ++ w3 ++ c /\
    blank w0 /\ blank w1 /\ blank w2 /\ blank w3 /\ comment c /\
    (colons = L "::" \/ (colons = [] /\ al = [] /\ el <> [] /\ w1 <> [])) /\
    (forall a, In a al -> attr_ok a) /\ (forall e, In e el -> ent_ok e) /\
    ~ In "!"%char (h ++ attrs_text al ++ ents_text el) /\
    ~ within (L "::") (attrs_text al) /\ ~ within (L "::") (ents_text el).

(* ---- definitions of derived types ---- *)
(* type, attributes, double colon, name, parameters, possibly a comment *)
Definition plain (s : str) : Prop := ~ In ","%char s /\ ~ In ":"%char s /\ ~ In "!"%char s.
Definition params_text (g : str) (params : option str) : str := match params with Some p => g ++ L "(" ++ p ++ L ")" | None => [] end.
Definition params_ok (params : option str) : Prop := forall p, params = Some p -> ~ In "("%char p /\ ~ In ":"%char p /\ ~ In "!"%char p.
Definition type_definition (name : str) (attrs : list str) (params : option str) (line : str) : Prop :=
  exists w0 t w1 w2 g w3 c,
    line = w0 ++ t ++ w1 ++ List.concat (map (fun x => L "," ++ x) attrs) ++ L "::" ++ w2 ++ name ++ params_text g params ++ w3 ++ c /\
    blank w0 /\ spells t (L "type") /\ blank w1 /\ blank w2 /\ blank g /\ blank w3 /\ comment c /\
    identifier name /\ Forall plain attrs /\ params_ok params.
(* the short form, without attributes *)
Definition short_definition (name : str) (params : option str) (line : str) : Prop :=
  exists w0 t w1 g w3 c,
    line = w0 ++ t ++ w1 ++ name ++ params_text g params ++ w3 ++ c /\
    blank w0 /\ spells t (L "type") /\ blank w1 /\ In " "%char w1 /\ blank g /\ blank w3 /\ comment c /\
    identifier name /\ params_ok params.

(* ---- first words ---- *)
Definition begins (word line : str) : Prop := exists w t r, line = w ++ t ++ r /\ blank w /\ spells t word.
Definition begins_paren (word line : str) : Prop := exists w t v r, line = w ++ t ++ v ++ L "(" ++ r /\ blank w /\ spells t word /\ blank v.
