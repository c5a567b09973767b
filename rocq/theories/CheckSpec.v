(* CheckSpec.v: what the checked strings must look like. *)
From Verif Require Import PyStr PhaseSpec.
Open Scope nat_scope.
Open Scope list_scope.

Definition ends_nl (s : str) : Prop := exists t, s = t ++ [nl].
Definition all_space (s : str) : Prop := forall c, In c s -> is_space c = true.
Definition all_digit (s : str) : Prop := forall c, In c s -> is_digit c = true.
Definition all_alpha (s : str) : Prop := forall c, In c s -> is_alpha c = true.

(* ---- units: names with integer powers, separated by one blank ---- *)
(* an exponent: no sign or a minus, no leading zero *)
Definition power (s : str) : Prop :=
  exists m c t, s = m ++ c :: t /\ (m = [] \/ m = L "-") /\ is_digit c = true /\ c <> "0"%char /\ all_digit t.
Definition unit_term (s : str) : Prop := exists n p, s = n ++ p /\ n <> [] /\ all_alpha n /\ (p = [] \/ power p).
Inductive unit_expr : str -> Prop :=
| UOne t : unit_term t -> unit_expr t
| UMore t c r : unit_term t -> is_space c = true -> unit_expr r -> unit_expr (t ++ c :: r).
(* two words joined by an underscore, e.g. dobson_unit *)
Definition underscored (s : str) : Prop :=
  exists a b, s = a ++ L "_" ++ b /\ a <> [] /\ b <> [] /\ all_alpha a /\ all_alpha b.

(* ---- array references ---- *)
Definition subscript (s : str) : Prop := fortran_name s \/ s = L ":" \/ (s <> [] /\ all_digit s).
Definition padded (s d : str) : Prop := exists a b, s = a ++ d ++ b /\ all_space a /\ all_space b.
(* name, blanks, parenthesised subscripts separated by commas *)
Definition array_ref (s name : str) (dims : list str) : Prop :=
  fortran_name name /\ Forall subscript dims /\ 1 <= length dims <= 7 /\
  exists w ps, all_space w /\ Forall2 padded ps dims /\ s = name ++ w ++ L "(" ++ join (L ",") ps ++ L ")".

(* ---- Fortran literals ---- *)
Definition sign (s : str) : Prop := s = [] \/ s = L "+" \/ s = L "-".
Definition int_literal (s : str) : Prop := exists g d, s = g ++ d /\ sign g /\ d <> [] /\ all_digit d.
Definition exponent (s : str) : Prop :=
  s = [] \/ exists c g d, s = c :: g ++ d /\ lower_c c = "e"%char /\ sign g /\ d <> [] /\ all_digit d.
Definition real_literal (s : str) : Prop :=
  exists g i f x, s = g ++ i ++ L "." ++ f ++ x /\ sign g /\ all_digit i /\ all_digit f /\ (i <> [] \/ f <> []) /\ exponent x.
Definition logical_literal (s : str) : Prop := lower s = L ".true." \/ lower s = L ".false.".
(* quote, text in which the quote only occurs doubled, quote *)
Inductive quoted_body (q : ascii) : str -> Prop :=
| QEnd : quoted_body q []
| QChr c t : c <> q -> quoted_body q t -> quoted_body q (c :: t)
| QTwo t : quoted_body q t -> quoted_body q (q :: q :: t).
Definition char_literal (s : str) : Prop :=
  exists q b, (q = """"%char \/ q = "'"%char) /\ s = q :: b ++ [q] /\ quoted_body q b.
(* a literal followed by its kind *)
Definition of_kind (lit : str -> Prop) (kind s : str) : Prop :=
  (kind = [] /\ lit s) \/ (kind <> [] /\ exists v, s = v ++ L "_" ++ kind /\ lit v).

(* ---- diagnostic names ---- *)
Definition diag_name (s : str) : Prop :=
  exists p q, s = p ++ q /\ (p = [] \/ fortran_name p) /\
    (q = [] \/ exists v t, q = v ++ t /\ (v = L "${process}" \/ v = L "${scheme_name}") /\ forall c, In c t -> is_word c = true).
