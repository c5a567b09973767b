(* FWSpec.v: what folding a Fortran statement over several lines must preserve. *)
From Verif Require Import PyStr.
Open Scope nat_scope.
Open Scope list_scope.

Definition is_quote (c : ascii) : Prop := c = "'"%char \/ c = """"%char.
(* text that ends outside character constants *)
Inductive code : str -> Prop :=
| code_nil : code []
| code_chr a c : code a -> ~ is_quote c -> code (a ++ [c])
| code_const a q b : code a -> is_quote q -> ~ In q b -> code (a ++ q :: b ++ [q]).
(* text that ends at a place where blanks may be inserted *)
Definition sep (a : str) : Prop := exists p, a = p ++ L " " \/ a = p ++ L "," \/ a = p ++ L "//".
Definition blank (w : str) : Prop := forall c, In c w -> is_space c = true.

(* the same statement up to blanks that follow a blank, a comma or // outside
   character constants *)
Inductive same_code : str -> str -> Prop :=
| same_refl s : same_code s s
| same_gap a w w' b b' : code a -> sep a -> blank w -> blank w' -> same_code b b' ->
    same_code (a ++ w ++ b) (a ++ w' ++ b').

(* reading lines by the free-form rules: a line that ends in & is continued, after
   the first & of the next line if that is its first character, else from its start;
   blank lines at the end add nothing *)
Definition ends_amp (l : str) : Prop := exists t, l = t ++ L "&".
Definition begins_amp (l : str) : Prop := exists w t, blank w /\ l = w ++ "&"%char :: t.
Inductive folded : list str -> str -> Prop :=
| folded_last l bs : ~ ends_amp l -> Forall (eq []) bs -> folded (l :: bs) l
| folded_more a l r t : ~ begins_amp l -> folded (l :: r) t -> folded ((a ++ L "&") :: l :: r) (a ++ t)
| folded_amp a w l r t : blank w -> folded (l :: r) t ->
    folded ((a ++ L "&") :: (w ++ "&"%char :: l) :: r) (a ++ t).

(* a statement without comment and continuation marks *)
Definition no_marks (s : str) : Prop := forall a c b, s = a ++ c :: b -> code a -> c <> "!"%char /\ c <> "&"%char.
(* everywhere in the statement there is a place to break among the next n characters *)
Definition short_pieces (n : nat) (s : str) : Prop :=
  forall a b, s = a ++ b -> code a -> n <= length b ->
    exists u v, b = u ++ v /\ 2 <= length u <= n /\ code u /\ sep u.
(* a comment line, or a blank one *)
Definition comment_line (l : str) : Prop := blank l \/ exists w t, blank w /\ l = w ++ "!"%char :: t.
(* complete statement text: not blank at either end, not ending where more must follow *)
Definition statement (s : str) : Prop := strip s = s /\ code s /\ ~ sep s /\ no_marks s.

(* the characters of a text other than blanks and the marks & and ! *)
Definition mark (c : ascii) : bool := is_space c || Ascii.eqb c "&" || Ascii.eqb c "!".
Definition letters (s : str) : str := List.filter (fun c => negb (mark c)) s.

(* the character constants of a text, in order *)
Inductive constants : str -> list str -> Prop :=
| constants_nil : constants [] []
| constants_chr a l c : constants a l -> ~ is_quote c -> constants (a ++ [c]) l
| constants_const a l q b : constants a l -> is_quote q -> ~ In q b -> constants (a ++ q :: b ++ [q]) (l ++ [b]).

(* layout: every line starts in the column of the indentation, lines after a & further in *)
Definition indented (k : nat) (l : str) : Prop :=
  l = [] \/ exists c t, l = List.repeat " "%char k ++ c :: t /\ is_space c = false.
Inductive layout (k extra : nat) : nat -> list str -> Prop :=
| layout_nil i : layout k extra i []
| layout_more i l r : indented i l -> ends_amp l -> layout k extra (k + extra) r -> layout k extra i (l :: r)
| layout_last i l r : indented i l -> ~ ends_amp l -> layout k extra k r -> layout k extra i (l :: r).
(* text without continuation marks and quotes *)
Definition plain_text (s : str) : Prop := forall c, In c s -> c <> "&"%char /\ ~ is_quote c.
