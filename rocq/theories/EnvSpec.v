(* EnvSpec.v: definitions, kinds and version numbers. *)
From Verif Require Import PyStr.
Open Scope nat_scope.
Open Scope list_scope.

(* an item NAME, NAME=VALUE, -DNAME or -DNAME=VALUE, blanks around the parts allowed *)
Definition names (text k : str) : Prop := strip text = L "-D" ++ k \/ (strip text = k /\ forall t, k <> L "-D" ++ t).
Inductive defines : str -> str -> option str -> Prop :=
| def_plain t k : ~ In "="%char t -> names t k -> defines t k None
| def_value t v k : ~ In "="%char t -> names t k -> defines (t ++ "="%char :: v) k (Some (strip v)).
(* the last item of the list that defines k gives it the value v *)
Definition last_definition (items : list str) (k : str) (v : option str) : Prop :=
  exists a i b, items = a ++ i :: b /\ defines i k v /\ forall j w, In j b -> ~ defines j k w.
(* NAME=SPEC with exactly one = *)
Definition kind_spec (text n s : str) : Prop :=
  exists a b, text = a ++ "="%char :: b /\ ~ In "="%char a /\ ~ In "="%char b /\ n = strip a /\ s = strip b.

(* numerals: digits, single underscores between them *)
Definition digit_of (c : ascii) (d : Z) : Prop := exists n, n <= 9 /\ c = ascii_of_nat (48 + n) /\ d = Z.of_nat n.
Inductive digits : str -> Z -> Prop :=
| digits_one c d : digit_of c d -> digits [c] d
| digits_more s z c d : digits s z -> digit_of c d -> digits (s ++ [c]) (10 * z + d)
| digits_under s z c d : digits s z -> digit_of c d -> digits (s ++ ["_"%char; c]) (10 * z + d).
(* integers as int() reads them: blanks around, an optional sign *)
Definition numeral (s : str) (z : Z) : Prop :=
  exists b, (strip s = b /\ digits b z) \/ (strip s = "+"%char :: b /\ digits b z) \/ (strip s = "-"%char :: b /\ digits b (- z)).
