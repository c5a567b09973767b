(* SzSpec.v: which section of a host array a scheme asks for, what texts of subscripts and
   sizes mean in Fortran. *)
From Coq Require Import List Ascii String ZArith Bool.
From Verif Require Import PyStr PhaseSpec CheckSpec ArModel.
Import ListNotations.
Open Scope nat_scope. Open Scope list_scope.

(* ---- values ---- *)
(* the host at one moment: the value of each of its integer objects, by Fortran name *)
Definition host := str -> Z.
(* a reference to an object of the host: no operators, colons or commas outside its name *)
Definition object_text (t : str) : Prop :=
  py_int t = None /\ t <> [] /\ forall c, In c t -> ~ In c (L ":,+-*").
(* an integer or an object *)
Inductive number (E : host) : str -> Z -> Prop :=
| N_int t n : int_literal t -> py_int t = Some n -> number E t n
| N_obj t : object_text t -> number E t (E t).
(* the integer or the host variable a bound of the metadata stands for *)
Inductive bound_value (E : host) (defs : pdefs) : str -> Z -> Prop :=
| B_int b n : py_int b = Some n -> bound_value E defs b n
| B_var b v n : py_int b = None -> In (b, v) defs -> number E (pv_local v) n -> bound_value E defs b n.
(* ---- the section asked for ---- *)
Definition has_dim (name : str) (v : pvar) : Prop := exists d ps, In d (pv_dims v) /\ d = join (L ":") ps /\ (exists p, In p ps /\ lower p = name) /\ forall p, In p ps -> ~ In ":"%char p.
(* the host keeps the whole horizontal domain in one array *)
Definition whole (v : pvar) : Prop := has_dim (L "horizontal_dimension") v.
(* a dimension: lower and upper bound *)
Definition bounds (d lo hi : str) : Prop := d = lo ++ L ":" ++ hi /\ ~ In ":"%char lo /\ ~ In ":"%char hi.
(* the values of the first and last element of a dimension of the argument [std] *)
Inductive asked (E : host) (run : bool) (defs : pdefs) (std : str) (d : str) (a b : Z) : Prop :=
| A_chunk lo hi h x : run = true -> bounds d lo hi -> lower hi = L "horizontal_loop_extent" -> In (std, h) defs -> whole h ->
    In (L "horizontal_loop_begin", x) defs ->
    bound_value E defs (L "horizontal_loop_begin") a -> bound_value E defs (L "horizontal_loop_end") b -> asked E run defs std d a b
| A_block lo hi h : run = true -> bounds d lo hi -> lower hi = L "horizontal_loop_extent" -> In (std, h) defs ->
    (~ whole h \/ forall x, ~ In (L "horizontal_loop_begin", x) defs) ->
    bound_value E defs (L "ccpp_constant_one") a -> bound_value E defs (L "horizontal_loop_extent") b -> asked E run defs std d a b
| A_plain lo hi : bounds d lo hi -> run = false \/ lower hi <> L "horizontal_loop_extent" ->
    bound_value E defs (lower lo) a -> bound_value E defs (lower hi) b -> asked E run defs std d a b.

(* what a host and an argument must satisfy: every variable once; the dimensions are lo:hi;
   the variables that are bounds have names or are numbers, and what Python reads as a number
   is one in Fortran; the host variable has one horizontal dimension, not two *)
Record good (defs : pdefs) (v : pvar) : Prop := {
  g_once : NoDup (map fst defs);
  g_dims : forall d, In d (pv_dims v) -> exists lo hi, bounds d lo hi;
  g_name : forall s x, In (s, x) defs ->
    In s (map L ["horizontal_loop_begin"; "horizontal_loop_end"; "ccpp_constant_one"; "horizontal_loop_extent"]%string) \/
    (exists d lo hi, In d (pv_dims v) /\ bounds d lo hi /\ (s = lower lo \/ s = lower hi)) ->
    object_text (pv_local x) \/ int_literal (pv_local x);
  g_int : forall d lo hi, In d (pv_dims v) -> bounds d lo hi -> forall b, b = lower lo \/ b = lower hi -> py_int b <> None -> int_literal b;
  g_host : forall h, In (pv_std v, h) defs -> ~ (whole h /\ has_dim (L "horizontal_loop_extent") h) }.


(* ---- subscripts and sizes in Fortran ---- *)
(* the elements a subscript selects in a dimension with bounds l to u: a section with its
   first and last element, or a single element *)
Inductive sel := Sec (a b : Z) | Elem (a : Z).
Inductive selects (E : host) (l u : Z) : str -> sel -> Prop :=
| S_sec s t a b : number E s a -> number E t b -> selects E l u (s ++ L ":" ++ t) (Sec a b)
| S_all : selects E l u (L ":") (Sec l u)
| S_one s a : number E s a -> selects E l u s (Elem a).
Definition extent (s : sel) : Z := match s with Sec a b => Z.max 0 (b - a + 1) | Elem _ => 1%Z end.
Definition is_sec (s : sel) : bool := match s with Sec _ _ => true | Elem _ => false end.
Definition rank (l : list sel) : nat := length (List.filter is_sec l).
Definition product (l : list Z) : Z := fold_right Z.mul 1%Z l.
(* size(x(...)) depends on the subscripts; the bounds of x only matter where a subscript is
   a bare colon *)
Definition section_size (l : list sel) : Z := product (map extent l).
(* expressions: b - a + 1 in parentheses, products; an operand after an operator has no sign *)
Definition unsigned (t : str) : Prop := forall r, t <> L "-" ++ r /\ t <> L "+" ++ r.
Inductive expr (E : host) : str -> Z -> Prop :=
| X_num t n : number E t n -> expr E t n
| X_ext s t a b : number E t b -> number E s a -> unsigned s -> expr E (L "(" ++ t ++ L "-" ++ s ++ L "+1)") (b - a + 1)
| X_prod ts ns : ts <> [] -> Forall2 (expr E) ts ns -> expr E (L "(" ++ join (L "*") ts ++ L ")") (product ns).
(* a list of subscripts *)
Definition subscripts (text : str) (l : list str) : Prop := text = L "(" ++ join (L ",") l ++ L ")".
(* the sections take the places of the subscripts with colons *)
Inductive placed : list str -> list str -> list str -> Prop :=
| P_nil : placed [] [] []
| P_sec t s target subs l : In ":"%char t -> placed target subs l -> placed (t :: target) (s :: subs) (s :: l)
| P_idx t target subs l : ~ In ":"%char t -> placed target subs l -> placed (t :: target) subs (t :: l).
