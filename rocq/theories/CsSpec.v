(* CsSpec.v: what an argument text means, and what the metadata say it should mean. *)
From Verif Require Import PyStr PhaseSpec CheckSpec CsModel.
Open Scope nat_scope.
Open Scope list_scope.

(* ---- the Fortran side: values of references, by name and subscripts ---- *)
Definition memory := str -> list Z -> Z.
(* name, or component of a structure: names separated by percent signs *)
Definition path (p : str) : Prop := exists ns, ns <> [] /\ Forall fortran_name ns /\ p = join (L "%") ns.
(* integer expressions: literals, scalars, elements *)
Inductive eval (m : memory) : str -> Z -> Prop :=
| E_lit t n : int_literal t -> py_int t = Some n -> eval m t n
| E_name p : path p -> eval m p (m p [])
| E_elem p ts ns : path p -> ts <> [] -> evals m ts ns -> eval m (p ++ L "(" ++ join (L ", ") ts ++ L ")") (m p ns)
with evals (m : memory) : list str -> list Z -> Prop :=
| E_nil : evals m [] []
| E_cons t n ts ns : eval m t n -> evals m ts ns -> evals m (t :: ts) (n :: ns).
(* a subscript is a value or several separated by colons (a section); a part may be absent *)
Definition sub := list (option Z).
Definition part_text (m : memory) (t : str) (x : option Z) : Prop :=
  match x with None => t = [] | Some n => eval m t n end.
Definition sub_text (m : memory) (t : str) (l : sub) : Prop :=
  exists ps, t = join (L ":") ps /\ Forall2 (part_text m) ps l.
(* the text is the object p with these subscripts *)
Definition denotes (m : memory) (sep text p : str) (subs : list sub) : Prop :=
  path p /\
  ((subs = [] /\ text = p) \/
   (subs <> [] /\ exists ts, text = p ++ L "(" ++ join sep ts ++ L ")" /\ Forall2 (sub_text m) ts subs)).

(* ---- the metadata side ---- *)
(* the colons among the subscripts are replaced by the dimensions, in order *)
Inductive filled : list str -> list str -> list str -> Prop :=
| F_nil : filled [] [] []
| F_colon d subs dims full : filled subs dims full -> filled (L ":" :: subs) (d :: dims) (d :: full)
| F_index x subs dims full : x <> L ":" -> filled subs dims full -> filled (x :: subs) dims (x :: full).
(* the object a variable refers to and its subscripts in standard names; with [sect], with
   the dimensions of the variable, without it only those of the local name *)
Inductive refers (sect : bool) : obj -> str -> list str -> Prop :=
| R_plain v : fortran_name (v_local v) -> refers sect (OV v) (v_local v) (if sect then v_dims v else [])
| R_ref v n subs full : array_ref (v_local v) n subs -> (if sect then filled subs (v_dims v) full else full = subs) -> refers sect (OV v) n full
| R_part r fld p full : fortran_name (v_local r) -> refers sect fld p full -> refers sect (OD r fld) (v_local r ++ L "%" ++ p) full.

Definition no_char (c : ascii) (s : str) : Prop := ~ In c s.
(* a single value: no dimensions, no colons *)
Definition scalar (o : obj) : Prop :=
  v_dims (leaf o) = [] /\ forall p full, refers false o p full -> Forall (no_char ":") full.
(* the value of the variable with a standard name *)
Inductive std_val (d : dict) (m : memory) : str -> Z -> Prop :=
| V_one : std_val d m (L "ccpp_constant_one") 1
| V_lit s n : s <> L "ccpp_constant_one" -> ~ In s (map fst d) -> int_literal s -> py_int s = Some n -> std_val d m s n
| V_var s o p subs ns : s <> L "ccpp_constant_one" -> In (s, o) d -> scalar o -> refers false o p subs ->
    std_vals d m subs ns -> std_val d m s (m p ns)
with std_vals (d : dict) (m : memory) : list str -> list Z -> Prop :=
| V_nil : std_vals d m [] []
| V_cons s n ss ns : std_val d m s n -> std_vals d m ss ns -> std_vals d m (s :: ss) (n :: ns).
Definition part_val (d : dict) (m : memory) (s : str) (x : option Z) : Prop :=
  match x with None => s = [] | Some n => s <> [] /\ std_val d m s n end.

(* the dimensions that are cut down to the part the caller asks for *)
Definition loop_dims : list (str * list str) :=
  [(L "ccpp_constant_one:horizontal_dimension", [L "horizontal_loop_begin"; L "horizontal_loop_end"]);
   (L "ccpp_constant_one:vertical_layer_dimension", [L "vertical_layer_index"]);
   (L "ccpp_constant_one:vertical_interface_dimension", [L "vertical_interface_index"])].
Definition cut (l : dict) (dim : str) (names : list str) : Prop :=
  In (dim, names) loop_dims /\ forall s, In s names -> In s (map fst l).
Definition loop_val (l : dict) (m : memory) (s : str) (x : option Z) : Prop := exists n, x = Some n /\ std_val l m s n.
(* a dimension in standard names *)
Definition pieces (dim : str) (ps : list str) : Prop := ps <> [] /\ Forall (no_char ":") ps /\ dim = join (L ":") ps.
Inductive dim_val (d : dict) (lv : option dict) (m : memory) (dim : str) : sub -> Prop :=
| D_cut l names x : lv = Some l -> cut l dim names -> Forall2 (loop_val l m) names x -> dim_val d lv m dim x
| D_same ps x : (forall l names, lv = Some l -> ~ cut l dim names) -> pieces dim ps ->
    Forall2 (part_val d m) ps x -> dim_val d lv m dim x.

(* ---- well-formed dictionaries ---- *)
Definition part_ok (p : str) : Prop := p = [] \/ fortran_name p \/ int_literal p.
Definition dim_ok (dim : str) : Prop := forall ps, pieces dim ps -> Forall part_ok ps.
Inductive named : obj -> Prop :=
| N_plain v : fortran_name (v_local v) -> named (OV v)
| N_ref v n subs : array_ref (v_local v) n subs -> named (OV v)
| N_part r fld : fortran_name (v_local r) -> named fld -> named (OD r fld).
(* s is a bound or an index of o *)
Definition mentions (o : obj) (s : str) : Prop :=
  exists sect p full dim ps, refers sect o p full /\ In dim full /\ pieces dim ps /\ In s ps.
Record tidy (d : dict) : Prop := {
  t_keys : NoDup (map fst d);
  t_named : forall s o, In (s, o) d -> named o;
  t_dims : forall s o, In (s, o) d -> Forall dim_ok (v_dims (leaf o));
  t_scalar : forall s o s' o', In (s, o) d -> mentions o s' -> In (s', o') d -> scalar o' }.
(* the loop variables are scalars *)
Record tidy_loop (l : dict) : Prop := {
  l_tidy : tidy l;
  l_scalar : forall s o dim names, In (dim, names) loop_dims -> In s names -> In (s, o) l -> scalar o }.
(* no chain of subscripts leads back *)
Definition acyclic (d : dict) : Prop :=
  exists rank : str -> nat, forall s o s' o', In (s, o) d -> mentions o s' -> In (s', o') d -> rank s' < rank s.

(* ---- dimension strings: the variables are looked for in several dictionaries in turn ---- *)
Definition first_val (ds : list dict) (m : memory) (s : str) (x : option Z) : Prop :=
  exists a d b n, ds = a ++ d :: b /\ (forall d', In d' a -> ~ In s (map fst d')) /\
    (s = L "ccpp_constant_one" \/ In s (map fst d)) /\ std_val d m s n /\ x = Some n.
(* the bounds are given when they are asked for and when the dimension is an index *)
Definition given (explicit : bool) (dim : str) : Prop := explicit = true \/ no_char ":" dim.
Inductive dim2_val (ds : list dict) (explicit subst : bool) (m : memory) (dim : str) : sub -> Prop :=
| D2_whole : ~ given explicit dim -> dim2_val ds explicit subst m dim [None; None]
| D2_cut a d b names x : given explicit dim -> subst = true -> ds = a ++ d :: b ->
    (forall d' names', In d' a -> ~ cut d' dim names') -> cut d dim names -> Forall2 (loop_val d m) names x ->
    dim2_val ds explicit subst m dim x
| D2_names ps x : given explicit dim -> (subst = true -> forall d names, In d ds -> ~ cut d dim names) -> pieces dim ps ->
    Forall2 (first_val ds m) ps x -> dim2_val ds explicit subst m dim x.
