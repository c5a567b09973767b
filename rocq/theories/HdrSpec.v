(* HdrSpec.v: vocabulary for C95 to C99. *)
From Verif Require Import PyStr ReqModel DictModel HdrModel.
Open Scope nat_scope.
Open Scope list_scope.

(* Fortran names, types, kinds and intents are compared without case *)
Definition same_ci (a b : str) : Prop := lower a = lower b.
Definition same_opt (a b : option str) : Prop :=
  match a, b with Some x, Some y => same_ci x y | None, None => True | _, _ => False end.
Definition same_rank (m f : hvar) : Prop := exists a b, h_dims m = Some a /\ h_dims f = Some b /\ length a = length b.
(* the declaration has the name, type, kind and rank of the metadata *)
Definition declared_as (m f : hvar) : Prop :=
  same_ci (h_local m) (h_local f) /\ same_ci (h_type m) (h_type f) /\ same_opt (h_kind m) (h_kind f) /\ same_rank m f.
(* every element of a dimension is an integer, nothing, or a variable of the metadata *)
Definition known_item (mh : header) (item : str) : Prop :=
  item = [] \/ py_int item <> None \/ exists v, In v (hd_vars mh) /\ same_ci (h_local v) item.
Definition known_dims (mh : header) (f : hvar) : Prop :=
  exists l, h_dims f = Some l /\ forall d item, In d l -> In item (split_on ":" d) -> known_item mh item.
Definition named_in (l : list hvar) (f : hvar) : Prop := exists v, In v l /\ same_ci (h_local v) (h_local f).
Definition no_array_refs (l : list hvar) : Prop := forall v, In v l -> ~ In "("%char (h_local v).
Definition distinct_names (l : list hvar) : Prop := NoDup (map (fun v => lower (h_local v)) l).

(* ---- clean: the file that a line of a list names ---- *)
(* walking down the parts of a path from the directory [d] (the top first) arrives at [r] *)
Inductive walks : list str -> list str -> list str -> Prop :=
| walks_end d : walks [] d d
| walks_stay p ps d r : p = [] \/ p = L "." -> walks ps d r -> walks (p :: ps) d r
| walks_up x ps d r : walks ps d r -> walks (L ".." :: ps) (d ++ [x]) r
| walks_top ps r : walks ps [] r -> walks (L ".." :: ps) [] r
| walks_down p ps d r : p <> [] -> p <> L "." -> p <> L ".." -> walks ps (d ++ [p]) r -> walks (p :: ps) d r.
(* blank lines and comment lines name nothing; a path from the top names itself; another
   path is taken from the directory of the list *)
Definition names_file (root line q : str) : Prop :=
  exists c t, strip line = c :: t /\ c <> "#"%char /\ c <> "!"%char /\
    if Ascii.eqb c "/" then q = c :: t
    else exists r, walks (split_on "/" root ++ split_on "/" (c :: t)) [] r /\ q = L "/" ++ join (L "/") r.
