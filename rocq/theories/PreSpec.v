(* PreSpec.v: vocabulary for C89 and C90. *)
From Verif Require Import PyStr UnitModel CommonModel DictModel PreModel.
Open Scope nat_scope.
Open Scope list_scope.

(* all variables requested by any table of any file *)
Definition requested (files : list (list (list pvar))) (v : pvar) : Prop := exists f t, In f files /\ In t f /\ In v t.
(* same name, type and rank *)
Definition same_shape (a b : pvar) : Prop := p_std a = p_std b /\ p_type a = p_type b /\ p_rank a = p_rank b.
(* the kinds may differ only if both are character lengths and one is '*' *)
Definition kinds_match (a b : pvar) : Prop :=
  p_kind a = p_kind b \/
  p_type a = L "character" /\ exists n m, p_kind a = L "len=" ++ n /\ p_kind b = L "len=" ++ m /\ (n = L "*" \/ m = L "*").
(* the host's container names modules and types only *)
Definition host_container (c : str) : Prop :=
  Forall (fun i => exists r, i = L "MODULE_" ++ r \/ i = L "TYPE_" ++ r \/ i = L "MODULE" \/ i = L "TYPE") (split_on " " c).
(* the text of the conversion the unit table has for this pair of units *)
Definition conversion (from to t : str) : Prop :=
  exists a b, to_identifier from = Ok a /\ to_identifier to = Ok b /\ find_fun unit_functions (a ++ L "__to__" ++ b) = Some t.
(* what becomes of the request v for the host variable h *)
Definition matched (h v v' : pvar) : Prop :=
  p_std v' = p_std v /\ p_units v' = p_units v /\ p_local v' = p_local v /\ p_type v' = p_type v /\ p_rank v' = p_rank v /\
  p_intent v' = p_intent v /\ p_cont v' = p_cont v /\
  p_target v' = Some (p_local h) /\
  p_kind v' = (if str_eqb (p_type v) (L "character") && str_eqb (p_kind v) (L "len=*") then p_kind h else p_kind v).
