(* TreeSpec.v: what a suite definition calls. *)
From Verif Require Import PyStr TreeModel.
From Coq Require Import ZArith.
Open Scope nat_scope.
Open Scope list_scope.

(* the schemes below an element, in document order *)
Inductive in_order : xml -> list str -> Prop :=
| IScheme n : in_order (XScheme n) [n]
| ISub name loop xs ns : all_in_order xs ns -> in_order (XSubcycle name loop xs) ns
| ITime xs ns : all_in_order xs ns -> in_order (XTime xs) ns
with all_in_order : list xml -> list str -> Prop :=
| INil : all_in_order [] []
| ICons x xs a b : in_order x a -> all_in_order xs b -> all_in_order (x :: xs) (a ++ b).
Scheme in_order_ind2 := Minimality for in_order Sort Prop
with all_in_order_ind2 := Minimality for all_in_order Sort Prop.
Combined Scheme in_order_mut from in_order_ind2, all_in_order_ind2.

(* element [x] occurs in the tree of [y] *)
Inductive inside (x : xml) : xml -> Prop :=
| In_self : inside x x
| In_sub name loop ys y : In y ys -> inside x y -> inside x (XSubcycle name loop ys)
| In_time ys y : In y ys -> inside x y -> inside x (XTime ys).
(* part [p] occurs in the tree of [q] *)
Inductive part_in (p : part) : part -> Prop :=
| Pi_self : part_in p p
| Pi_sub name loop qs q : In q qs -> part_in p q -> part_in p (PSub name loop qs)
| Pi_time qs q : In q qs -> part_in p q -> part_in p (PTime qs)
| Pi_vert i d qs q : In q qs -> part_in p q -> part_in p (PVert i d qs).

(* running the written statements: the calls made; [val] gives the extents *)
Inductive runs (val : str -> nat) : list stmt -> list str -> Prop :=
| R_nil : runs val [] []
| R_call n r t : runs val r t -> runs val (Call n :: r) (n :: t)
| R_do i e body r u t : runs val body u -> runs val r t ->
    runs val (Do i e :: body ++ EndDo :: r) (List.concat (List.repeat u (val e)) ++ t).
(* the calls a tree stands for: a vertical loop makes those of its parts once per level *)
Inductive means (val : str -> nat) : part -> list str -> Prop :=
| M_scheme n : means val (PScheme n) [n]
| M_time ps t : all_mean val ps t -> means val (PTime ps) t
| M_vert i d ps t : all_mean val ps t -> means val (PVert i d ps) (List.concat (List.repeat t (val d)))
with all_mean (val : str -> nat) : list part -> list str -> Prop :=
| M_nil : all_mean val [] []
| M_cons p ps a b : means val p a -> all_mean val ps b -> all_mean val (p :: ps) (a ++ b).
Scheme means_ind2 := Minimality for means Sort Prop
with all_mean_ind2 := Minimality for all_mean Sort Prop.
Combined Scheme means_mut from means_ind2, all_mean_ind2.

(* [a] is [b] with some elements left out *)
Inductive subseq {A} : list A -> list A -> Prop :=
| S_nil : subseq [] []
| S_keep x a b : subseq a b -> subseq (x :: a) (x :: b)
| S_drop x a b : subseq a b -> subseq a (x :: b).
