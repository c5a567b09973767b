(* CommonSpec.v: specification of the functions of CommonModel.v. *)
From Verif Require Import PyStr.
Open Scope nat_scope.
Open Scope list_scope.

Definition no_blank (s : str) : Prop := ~ In " "%char s.
(* text with matching parentheses *)
Inductive balanced : str -> Prop :=
| bal_nil : balanced []
| bal_chr c : c <> "("%char -> c <> ")"%char -> balanced [c]
| bal_app a b : balanced a -> balanced b -> balanced (a ++ b)
| bal_par a : balanced a -> balanced ("("%char :: a ++ L ")").
(* closing minus opening parentheses *)
Fixpoint closings (s : str) : Z :=
  match s with
  | [] => 0%Z
  | c :: t => ((if Ascii.eqb c ")" then 1 else if Ascii.eqb c "(" then -1 else 0) + closings t)%Z
  end.
(* r is the shortest non-empty end of s with as many closing as opening parentheses *)
Definition shortest_balanced_end (s a r : str) : Prop :=
  s = a ++ r /\ r <> [] /\ closings r = 0%Z /\ forall u v, r = u ++ v -> u <> [] -> v <> [] -> closings v <> 0%Z.

(* units: words of letters and digits separated by blanks and the signs . - + *)
Inductive sign := SBlank | SDot | SMinus | SPlus.
Definition sign_chr (g : sign) : ascii :=
  match g with SBlank => " " | SDot => "." | SMinus => "-" | SPlus => "+" end%char.
Definition unit_text (w : str) (l : list (sign * str)) : str := w ++ flat_map (fun p => sign_chr (fst p) :: snd p) l.
Definition plain_word (w : str) : Prop := forall c, In c w -> is_alpha c = true \/ is_digit c = true.
(* words that stand for a sign in the identifier *)
Definition sign_word (w : str) : Prop := w = L "p" \/ w = L "minus" \/ w = L "plus".
(* a Python identifier *)
Definition identifier (s : str) : Prop :=
  exists c t, s = c :: t /\ (is_alpha c = true \/ c = "_"%char) /\ forall d, In d t -> is_word d = true.

(* the reserved words of Python 3 *)
Definition reserved : list str := map L
  ["and"; "as"; "assert"; "async"; "await"; "break"; "class"; "continue"; "def"; "del"; "elif"; "else"; "except";
   "False"; "finally"; "for"; "from"; "global"; "if"; "import"; "in"; "is"; "lambda"; "None"; "nonlocal"; "not"; "or";
   "pass"; "raise"; "return"; "True"; "try"; "while"; "with"; "yield"]%string.
