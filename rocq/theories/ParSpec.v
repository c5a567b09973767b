(* Fortran references: components separated by %, subscripts separated by commas,
   each a number, a reference, or a section a:b:c of these with empty parts allowed. *)
From Coq Require Import List Ascii String ZArith Bool.
From Verif Require Import PyStr.
Import ListNotations.
Open Scope nat_scope. Open Scope list_scope.

Definition name (n : str) : Prop := exists c r, n = c :: r /\ is_alpha c = true /\ Forall (fun d => is_word d = true) r.
Definition number (d : str) : Prop := d <> [] /\ Forall (fun c => is_digit c = true) d.
(* [ref s b i]: [s] is a reference to (a part of) the variable [b], and [i] lists
   the variables used in its subscripts, at any depth *)
Inductive ref : str -> str -> list str -> Prop :=
| ref_one s b i : comp s b i -> ref s b i
| ref_more s b i s' b' i' : comp s b i -> ref s' b' i' -> ref (s ++ "%"%char :: s') b (i ++ i')
with comp : str -> str -> list str -> Prop :=
| comp_name n : name n -> comp n n []
| comp_subs n s i : name n -> subs s i -> comp (n ++ "("%char :: s ++ [")"%char]) n i
with subs : str -> list str -> Prop :=
| subs_one s i : sub s i -> subs s i
| subs_more s i s' i' : sub s i -> subs s' i' -> subs (s ++ ","%char :: s') (i ++ i')
with sub : str -> list str -> Prop :=
| sub_one s i : part s i -> sub s i
| sub_more s i s' i' : part s i -> sub s' i' -> sub (s ++ ":"%char :: s') (i ++ i')
with part : str -> list str -> Prop :=
| part_none : part [] []
| part_number d : number d -> part d []
| part_ref s b i : ref s b i -> part s (b :: i).

Scheme ref_ind' := Induction for ref Sort Prop
with comp_ind' := Induction for comp Sort Prop
with subs_ind' := Induction for subs Sort Prop
with sub_ind' := Induction for sub Sort Prop
with part_ind' := Induction for part Sort Prop.
Combined Scheme ref_mutind from ref_ind', comp_ind', subs_ind', sub_ind', part_ind'.

(* the subscripts of an actual argument: a section of the host variable's name is
   replaced by the section the scheme asks for, in order; an index stays *)
Inductive merged : list str -> list str -> list str -> Prop :=
| merged_nil : merged [] [] []
| merged_section d ds x xs out : In ":"%char d -> merged ds xs out -> merged (d :: ds) (x :: xs) (x :: out)
| merged_index d ds xs out : ~ In ":"%char d -> merged ds xs out -> merged (d :: ds) xs (d :: out).

(* [called b n]: the text [n] is the name [b], alone or followed by (:), (:,:), ... *)
Definition called (b n : str) : Prop :=
  n = b \/ exists cs, cs <> [] /\ Forall (fun c => c = L ":") cs /\ n = b ++ "("%char :: join (L ",") cs ++ [")"%char].

(* the host variables with their Fortran names and dimensions, by standard name *)
Definition host := list (str * (str * list str)).
(* the name of [v] starts with the variable [x] or uses it in a subscript *)
Definition refers (h : host) (v x : str) : Prop :=
  exists n ds b i, In (v, (n, ds)) h /\ ref n b i /\ (x = b \/ In x i).
(* the variables a list of calls needs: arguments, extra variables, and the bounds of
   the dimensions of the variables that needed ones refer to; [intg] says which texts
   are integers *)
Section Needed.
Context {I : Type}.
Variables (h : host) (intg : str -> Prop) (calls : list (list str * list (str * I))).
Inductive needed : str -> Prop :=
| need_arg s v i : In s calls -> In (v, i) (snd s) -> needed v
| need_extra s v : In s calls -> In v (fst s) -> needed v
| need_bound v x p n ds d t : needed v -> refers h v x -> In (p, (n, ds)) h -> called x n -> In d ds -> In t (split_on ":"%char d) ->
    ~ intg (lower t) -> needed (lower t).
End Needed.
