(* SelSpec.v: vocabulary for C91 to C94. *)
From Verif Require Import PyStr ReqModel StaticModel CommonModel DictModel PreModel SelModel.
Open Scope nat_scope.
Open Scope list_scope.

Definition occurs (p s : str) : Prop := exists a b, s = a ++ p ++ b.
(* the element of the file describes this group *)
Definition describes (e : elem) (g : group) : Prop :=
  e_name e <> None /\
  ((e_tag e = L "init" /\ exists t, e_text e = Some t /\ g = mkGroup (L "init") GInit [mkSub 1 [t]]) \/
   (e_tag e = L "finalize" /\ exists t, e_text e = Some t /\ g = mkGroup (L "finalize") GFinalize [mkSub 1 [t]]) \/
   (e_tag e <> L "init" /\ e_tag e <> L "finalize" /\ e_name e = Some (g_name g) /\ g_kind g = GRegular /\
    Forall2 (fun p c => (exists s, fst p = Some s /\ py_int s = Some (sc_loop c)) /\ snd p = map Some (sc_schemes c) /\ sc_schemes c <> [])
            (e_subs e) (g_subs g))).
(* scheme t appears in a group of the suite *)
Definition in_group (g : group) (t : str) : Prop := exists c, In c (g_subs g) /\ In t (sc_schemes c).
Definition in_suite (u : psuite) (t : str) : Prop := exists g, In g (ps_groups u) /\ in_group g t.
Definition in_regular (u : psuite) (t : str) : Prop := exists g, In g (ps_groups u) /\ g_kind g = GRegular /\ in_group g t.
(* what Suite.parse records for groups gs *)
Definition recorded (u : psuite) : Prop :=
  (forall t, In t (ps_schemes u) <-> in_suite u t) /\
  (forall x, In x (ps_subs u) <->
     (exists t s, in_regular u t /\ x = t ++ L "_" ++ stage_short s) \/
     (exists g t, In g (ps_groups u) /\ g_kind g = GInit /\ in_group g t /\ x = t ++ L "_init") \/
     (exists g t, In g (ps_groups u) /\ g_kind g = GFinalize /\ in_group g t /\ x = t ++ L "_finalize")).
(* scheme names the short stage names do not disturb *)
Definition clean (s : str) : Prop :=
  ~ occurs (L "timestep_init") s /\ ~ occurs (L "timestep_finalize") s /\ ~ occurs (L "finalize") s /\ ~ (exists a, s = a ++ L "timestep").
Definition plain (s : str) : Prop := ~ In " "%char s /\ ~ occurs (L "SUBROUTINE") s.
(* v is requested by routine t_stage of scheme t in module m *)
Definition requested_by (v : pvar) (m t : str) (s : stage) : Prop :=
  encode_container [m; t; t ++ L "_" ++ stage_name s] = Ok (p_cont v).
(* a routine the generated caps call: any routine of a scheme in a group, the init routine of
   the suite's <init> scheme *)
Definition called_in (suites : list psuite) (t : str) (s : stage) : Prop :=
  exists u, In u suites /\ (in_regular u t \/ s = Init /\ exists g, In g (ps_groups u) /\ g_kind g = GInit /\ in_group g t).
Definition called_var (suites : list psuite) (v : pvar) : Prop :=
  exists m t s, plain m /\ plain t /\ clean t /\ requested_by v m t s /\ called_in suites t s.
(* a host variable that defines a derived type or a kind *)
Definition defines_type (v : pvar) : Prop :=
  ~ In (p_type v) [L "character"; L "integer"; L "logical"; L "real"] /\ p_type v <> L "ccpp_t" /\ p_type v = p_std v.
Definition defines_kind (v : pvar) : Prop :=
  (exists r, p_std v = L "kind_" ++ r) /\ p_type v = L "integer" /\ p_units v = L "none".
(* the last file with an argument table of t *)
Definition last_file (files : list (str * list str)) (t f : str) : Prop :=
  exists a ts b, files = a ++ (f, ts) :: b /\ In t ts /\ forall p, In p b -> ~ In t (snd p).
