(* LineSpec.v: what splitting, reading and nesting mean. *)
From Verif Require Import PyStr.
Open Scope nat_scope.
Open Scope list_scope.

(* ---- character context of a Fortran line ---- *)
Inductive ctx := Code | Quote (q : ascii) | Comment.
Definition ctx_step (x : ctx) (c : ascii) : ctx :=
  match x with
  | Comment => Comment
  | Quote q => if Ascii.eqb c q then Code else Quote q
  | Code => if Ascii.eqb c "'" || Ascii.eqb c """" then Quote c else if Ascii.eqb c "!" then Comment else Code
  end.
(* the context after the text [s] *)
Definition ctx_of (s : str) : ctx := fold_left ctx_step s Code.

(* the list [l] cuts [s] at character [sep] exactly where [cut] holds of the text before *)
Definition cuts (sep : ascii) (cut : str -> Prop) (s : str) (l : list str) : Prop :=
  l <> [] /\ join [sep] l = s /\
  forall pre post, (exists l1 l2, l = l1 ++ l2 /\ l1 <> [] /\ l2 <> [] /\ pre = join [sep] l1 /\ post = join [sep] l2) <->
                   (s = pre ++ sep :: post /\ cut pre).

(* opening minus closing parentheses *)
Fixpoint paren_sum (s : str) : Z :=
  match s with
  | [] => 0
  | c :: t => (paren_sum t + (if Ascii.eqb c "(" then 1 else if Ascii.eqb c ")" then -1 else 0))%Z
  end.

(* ---- logical lines ---- *)
(* a line ending in a backslash continues *)
Definition continued (l : str) : Prop := exists t, rstrip l = t ++ ["\"%char].
(* a group of physical lines: all but the last continue, and the last does not unless
   the file ends there *)
Definition line_group (g : list str) (at_end : Prop) : Prop :=
  exists b l, g = b ++ [l] /\ (forall x, In x b -> continued x) /\ (continued l -> at_end).
(* its text: trailing blanks and the backslashes dropped *)
Definition piece (l : str) : str :=
  let r := rstrip l in if match rev r with c :: _ => Ascii.eqb c "\" | [] => false end then removelast r else r.
Definition group_text (g : list str) : str := List.concat (map piece g).
(* the groups of a file and the number of the line each begins at *)
Definition grouped (lines : list str) (gs : list (list str)) : Prop :=
  List.concat gs = lines /\
  forall i g, nth_error gs i = Some g -> line_group g (S i = length gs).
Definition start_of (gs : list (list str)) (i : nat) : nat := length (List.concat (firstn i gs)).
