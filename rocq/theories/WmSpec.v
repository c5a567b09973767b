(* WmSpec.v: what the prototype metadata of a Fortran file says. *)
From Coq Require Import List Ascii String Bool.
From Verif Require Import PyStr PyNum PhaseSpec CheckSpec MetaModel MetaSpec WmModel.
Import ListNotations.
Open Scope nat_scope. Open Scope list_scope.

(* ---- dimensions: the standard names of the bounds ---- *)
Definition placeholder (k : nat) : str := L "enter_standard_name_" ++ str_of_nat k.
Definition latest (ns : list (str * str)) (b s : str) : Prop := exists a c, ns = a ++ (b, s) :: c /\ forall t, ~ In (b, t) a.
(* n placeholders were used before, m after *)
Inductive bounds_read (ns : list (str * str)) : nat -> list str -> list str -> nat -> Prop :=
| BR_nil n : bounds_read ns n [] [] n
| BR_known n b s bs ss m : b <> [] -> latest ns b s -> bounds_read ns n bs ss m -> bounds_read ns n (b :: bs) (s :: ss) m
| BR_new n b bs ss m : b = [] \/ (forall s, ~ In (b, s) ns) -> bounds_read ns (n + 1) bs ss m -> bounds_read ns n (b :: bs) (placeholder (n + 1) :: ss) m.
Inductive dims_read (ns : list (str * str)) : nat -> list str -> list (list str) -> nat -> Prop :=
| DR_nil n : dims_read ns n [] [] n
| DR_cons n d ds bs ss k rs m : d = join (L ":") bs -> bs <> [] -> (forall b, In b bs -> ~ In ":"%char b) -> bounds_read ns n bs ss k -> dims_read ns k ds rs m -> dims_read ns n (d :: ds) (ss :: rs) m.
(* ---- the properties of a variable as the metadata reader sees them ---- *)
Definition range_of (d : list str) : str := match d with [x] => L "ccpp_constant_one:" ++ x | _ => join (L ":") d end.
Definition props_of (htype : str) (v : wvar) (ds : list (list str)) : props :=
  [(L "local_name", PText (w_local v)); (L "standard_name", PText (w_std v)); (L "units", PText (match w_units v with [] => L "enter_units" | u => u end))] ++
  (if str_eq_dec (w_type v) (w_kind v) then [(L "ddt_type", PText (w_type v))]
   else (L "type", PText (lower (w_type v))) :: match w_kind v with [] => [] | k => [(L "kind", PText (lower k))] end) ++
  [(L "dimensions", PList (map range_of ds))] ++ (if str_eq_dec htype (L "scheme") then [(L "intent", PText (w_intent v))] else []).
Inductive vars_read (htype : str) : list (str * str) -> nat -> list wvar -> list props -> nat -> Prop :=
| VR_nil ns n : vars_read htype ns n [] [] n
| VR_cons ns n v vs ds k ps m : dims_read ((w_local v, w_std v) :: ns) n (w_dims v) ds k -> vars_read htype ((w_local v, w_std v) :: ns) k vs ps m ->
    vars_read htype ns n (v :: vs) (props_of htype v ds :: ps) m.
(* a section starts with the name of the constant one *)
Inductive secs_read (dmod : str) : nat -> list wsec -> list section -> nat -> Prop :=
| SR_nil n : secs_read dmod n [] [] n
| SR_cons n s ss k ps rs m : vars_read (ws_type s) [(L "1", L "ccpp_constant_one")] n (ws_vars s) ps k -> secs_read dmod k ss rs m ->
    secs_read dmod n (s :: ss) (mkS (ws_title s) (ws_type s) dmod (L "UNKNOWN") ps :: rs) m.
(* tables of the same name become one *)
Inductive groups_read (dmod : str) : nat -> list (str * str * list wtab) -> list table -> nat -> Prop :=
| GR_nil n : groups_read dmod n [] [] n
| GR_cons n name typ g gs k ss ts m : secs_read dmod n (List.concat (map wt_secs g)) ss k -> groups_read dmod k gs ts m ->
    groups_read dmod n ((name, typ, g) :: gs) (mkT (Some name) (Some typ) [] None ss :: ts) m.

(* ---- tables that the Fortran parser makes ---- *)
Definition word_text (s : str) : Prop := s <> [] /\ strip s = s /\ ~ In "|"%char s.
Definition var_ok (skip : bool) (ddts : list str) (htype : str) (v : wvar) : Prop :=
  fortran_name (w_local v) /\ fortran_name (w_std v) /\ (w_units v = [] \/ word_text (w_units v)) /\
  (w_type v = w_kind v -> word_text (w_type v) /\ ~ type_text (w_type v) /\ (skip = true \/ In (w_type v) ddts)) /\
  (w_type v <> w_kind v -> word_text (lower (w_type v)) /\ type_text (lower (w_type v)) /\ (w_kind v = [] \/ word_text (lower (w_kind v)))) /\
  (htype = L "scheme" -> word_text (w_intent v)).
Definition sec_ok (skip : bool) (ddts : list str) (name typ : str) (s : wsec) : Prop :=
  word_text (ws_title s) /\ ws_type s = typ /\ ((typ = L "scheme" /\ scheme_of (ws_title s) name) \/ (typ <> L "scheme" /\ ws_title s = name)) /\
  forall v, In v (ws_vars s) -> var_ok skip ddts typ v.
Definition group_ok (skip : bool) (ddts : list str) (x : str * str * list wtab) : Prop :=
  let '(name, typ, g) := x in
  word_text name /\ In typ [L "ddt"; L "module"; L "host"; L "scheme"] /\ g <> [] /\
  (forall t, In t g -> wt_name t = name /\ wt_type t = typ /\ wt_secs t <> [] /\ forall s, In s (wt_secs t) -> sec_ok skip ddts name typ s) /\
  (typ <> L "scheme" -> length (List.concat (map wt_secs g)) = 1).
(* the metadata reader takes the properties *)
Definition takes (C : checker) (ts : list table) : Prop :=
  (exists f, c_prop C (L "dimensions") = Some f /\
     forall ds, (forall d, In d ds -> d <> [] /\ Forall fortran_name d) -> f (L "(" ++ join (L ",") (map (join (L ":")) ds) ++ L ")") = Some (PList (map (join (L ":")) ds))) /\
  forall t s a d b, In t ts -> In s (t_sections t) -> s_vars s = a ++ d :: b ->
    c_var C d = true /\ c_add C a d = true /\
    forall k x, In (k, PText x) d -> k <> L "local_name" -> k <> L "ddt_type" -> exists f, c_prop C k = Some f /\ f x = Some (PText x).
