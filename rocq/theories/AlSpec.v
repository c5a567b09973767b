(* AlSpec.v: what allocate and deallocate statements do. *)
From Coq Require Import List Ascii String ZArith Bool Permutation.
From Verif Require Import PyStr AlModel.
Import ListNotations.
Open Scope nat_scope. Open Scope list_scope.

(* a heap: the bounds of each allocated array *)
Definition heap := str -> option (list (Z * Z)).
Definition set_heap (h : heap) (n : str) (b : option (list (Z * Z))) : heap := fun x => if str_eqb x n then b else h x.
(* a bound of a statement: n for 1..n, a:b for a..b; [env] gives the values of the integer variables *)
Inductive bound_value (env : str -> Z) : str -> Z * Z -> Prop :=
| B_upper n : ~ In ":"%char n -> bound_value env n (1%Z, env n)
| B_both a b : ~ In ":"%char a -> ~ In ":"%char b -> bound_value env (a ++ L ":" ++ b) (env a, env b).
(* the effect of a statement; allocating an allocated array is an error, which has no effect to go on with *)
Inductive effect (env : str -> Z) : str -> heap -> heap -> Prop :=
| E_allocate n bs vs h : Forall (fun b => ~ In ","%char b /\ ~ In " "%char b) bs -> bs <> [] -> Forall2 (bound_value env) bs vs -> h n = None ->
    effect env (L "allocate(" ++ n ++ L "(" ++ join (L ", ") bs ++ L "))") h (set_heap h n (Some vs))
| E_free n k h v : h n = Some v -> effect env (L "if (allocated(" ++ n ++ L ")) " ++ List.repeat " "%char k ++ L " deallocate(" ++ n ++ L ")") h (set_heap h n None)
| E_skip n k h : h n = None -> effect env (L "if (allocated(" ++ n ++ L ")) " ++ List.repeat " "%char k ++ L " deallocate(" ++ n ++ L ")") h h.
Inductive effects (env : str -> Z) : list str -> heap -> heap -> Prop :=
| Es_nil h : effects env [] h h
| Es_cons s l h1 h2 h3 : effect env s h1 h2 -> effects env l h2 h3 -> effects env (s :: l) h1 h3.
(* the bounds of a dimension in the metadata: standard names whose local names [lookup] gives *)
Inductive dim_value (lookup : str -> option str) (env : str -> Z) : str -> Z * Z -> Prop :=
| D_upper d n : ~ In ":"%char d -> lookup d = Some n -> dim_value lookup env d (1%Z, env n)
| D_both a b x y : ~ In ":"%char a -> ~ In ":"%char b -> lookup a = Some x -> lookup b = Some y -> dim_value lookup env (a ++ L ":" ++ b) (env x, env y).
(* local names without punctuation *)
Definition plain (n : str) : Prop := ~ In ":"%char n /\ ~ In ","%char n /\ ~ In " "%char n.
(* a dimension with at most one colon *)
Definition simple_dim (d : str) : Prop := ~ In ":"%char d \/ exists a b, d = a ++ L ":" ++ b /\ ~ In ":"%char a /\ ~ In ":"%char b.
Definition is_order {A} (f : list A -> list A) : Prop := forall l, Permutation (f l) l.
