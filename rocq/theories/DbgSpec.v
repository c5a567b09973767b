(* What a debug check should do: the extents that metadata dimensions declare, by the
   values of the variables with these standard names. *)
From Coq Require Import List Ascii String ZArith Bool.
From Verif Require Import PyStr.
Import ListNotations.
Open Scope nat_scope. Open Scope list_scope.

(* the horizontal dimensions of the CCPP standard *)
Definition horizontal (d : str) : Prop :=
  d = L "ccpp_constant_one:horizontal_dimension" \/ d = L "ccpp_constant_one:horizontal_loop_extent" \/
  d = L "horizontal_loop_begin:horizontal_loop_end".
(* the number of columns an array has in a cap: the columns of the block in the run
   phase, all columns otherwise *)
Definition columns (val : str -> Z) (run : bool) : Z :=
  if run then (val (L "horizontal_loop_end") - val (L "horizontal_loop_begin") + 1)%Z else val (L "horizontal_dimension").
(* [declares val run d lo hi]: dimension [d] is declared with these bounds *)
Inductive declares (val : str -> Z) (run : bool) : str -> Z -> Z -> Prop :=
| decl_horizontal d : horizontal d -> declares val run d 1 (columns val run)
| decl_range a b : ~ In ":"%char a -> ~ In ":"%char b -> ~ horizontal (a ++ ":"%char :: b) -> declares val run (a ++ ":"%char :: b) (val a) (val b).
(* the values are those of a host: one is one, the block is loop_extent long *)
Definition sound (val : str -> Z) : Prop :=
  val (L "ccpp_constant_one") = 1%Z /\
  (val (L "horizontal_loop_extent") = val (L "horizontal_loop_end") - val (L "horizontal_loop_begin") + 1)%Z.
(* an element inside an array with these bounds *)
Definition inside (bs : list (Z * Z)) (x : list Z) : Prop := Forall2 (fun b i => (fst b <= i <= snd b)%Z) bs x.
Definition length_of (b : Z * Z) : Z := Z.max 0 (snd b - fst b + 1).
Definition total (ls : list Z) : Z := fold_right Z.mul 1%Z ls.
