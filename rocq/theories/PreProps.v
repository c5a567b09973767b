(* PreProps.v: C89 (requested variables agree with those of the host) and C90 (unit
   conversions registered for them).  Models scripts/metadata_parser.py L71-102, L690-716,
   scripts/mkcap.py L198-235, scripts/ccpp_prebuild.py L329-354, L430-537. *)
From Verif Require Import PyStr ReqModel ReqProofs UnitModel UnitSpec UnitProofs CommonModel DictModel DictProofs PreModel PreSpec PreProofs.
From Coq Require Import Lia Permutation.
Open Scope nat_scope.
Open Scope list_scope.

Lemma requested_key files m v : inv m (requested files) -> requested files v -> In (p_std v) (map fst m).
Proof. intros [A _] H. destruct (A v H) as (l & G & _). now apply get_some_key in G. Qed.
(* ---------------- C89 ---------------- *)
(* If collecting and comparing succeed, every variable any scheme asks for, in any file,
   is one the host defines exactly once, with the same type and rank and, except for
   character variables, the same kind; and the result has it with the host's local name
   as its target. *)
Theorem C89_agree_partial files req def mods out : collect files = Ok req -> compare def req = Ok (true, mods, out) ->
  forall v, requested files v ->
  exists h, get (p_std v) def = Some [h] /\ same_shape v h /\ (p_type v <> L "character" -> p_kind v = p_kind h) /\
  exists l v', get (p_std v) out = Some l /\ In v' l /\ matched h v v'.
Proof.
  intros C E v Rv. pose proof (collect_inv _ _ C) as I. destruct (compare_inv def req _ I _ _ _ E) as (P1 & P2 & _).
  pose proof (requested_key _ _ _ I Rv) as K. destruct (proj1 P1 eq_refl _ K) as (h & CK & _).
  exists h. destruct (P2 _ _ K CK) as (l & l' & G & O & F). destruct CK as (D & r & rs & G2 & PC).
  rewrite G in G2. injection G2 as ->. destruct I as [I1 I2]. destruct (I1 v Rv) as (l0 & G3 & Iv). rewrite G in G3. injection G3 as <-.
  destruct (I2 _ _ G) as (_ & _ & AG). pose proof (agree_trans _ _ _ (AG v r Iv (or_introl eq_refl)) (pcompat_agree _ _ PC)) as [S Q].
  split; [exact D|]. split; [exact S|]. split; [exact Q|]. exists l'.
  assert (X : exists v', In v' l' /\ matched h v v').
  { clear -F Iv. induction F as [|a b l l' H _ IH]; [destruct Iv|]. destruct Iv as [<-|Iv]; [exists b; split; [now left|apply H]|].
    destruct (IH Iv) as (v' & J & M). exists v'. split; [now right|exact M]. }
  destruct X as (v' & J & M). exists v'. auto.
Qed.
Print Assumptions C89_agree_partial.
(* Nothing else comes out. *)
Theorem C89_only_requests files req def b mods out : collect files = Ok req -> compare def req = Ok (b, mods, out) ->
  forall k l v', get k out = Some l -> In v' l -> exists v h, requested files v /\ p_std v = k /\ get k def = Some [h] /\ matched h v v'.
Proof.
  intros C E k l v' O Iv. pose proof (collect_inv _ _ C) as I. 
  assert (X : exists h, compatk def req k h).
  { unfold compare in E. destruct (fold_res _ _ _) as [st|] eqn:F; [|discriminate]. cbn [bind] in E. injection E as <- <- <-.
    assert (F0 : Pst def req st ([] ++ sorted (map fst req))).
    { refine (fold_res_inv _ (Pst def req) _ _ [] _ _ _ F).
      - split; [split; [intros _ k0 []|reflexivity]|]. split; [intros k0 h []|]. split; [|intros k0 H; now destruct (H eq_refl)].
        intros x. cbn. split; [tauto|intros (k0 & h & [] & _)].
      - intros a d x a' P J. apply (compare_one_inv def req _ I); [exact P|]. exact (proj1 (in_sorted _ _) J). }
    destruct F0 as (_ & _ & _ & F0). apply (F0 k). rewrite O. discriminate. }
  destruct X as (h & CK). destruct (compare_inv def req _ I _ _ _ E) as (_ & P2 & _ & P4 & _).
  assert (K : In k (map fst req)) by (apply P4; rewrite O; discriminate).
  destruct (P2 _ _ K CK) as (l0 & l1 & G & O1 & F). rewrite O in O1. injection O1 as <-.
  assert (X : exists v, In v l0 /\ matched h v v').
  { clear -F Iv. induction F as [|a b l l' H _ IH]; [destruct Iv|]. destruct Iv as [<-|Iv]; [exists a; split; [now left|apply H]|].
    destruct (IH Iv) as (v & J & M). exists v. split; [now right|exact M]. }
  destruct X as (v & J & M). destruct I as [_ I2]. destruct (I2 _ _ G) as (_ & Q & _). destruct (Q v J) as [Rv Sv].
  exists v, h. destruct CK as [D _]. auto.
Qed.
Print Assumptions C89_only_requests.
(* When no character variable is requested the verdict is exact. *)
Theorem C89_verdict files req def b mods out : (forall v, requested files v -> p_type v <> L "character") ->
  collect files = Ok req -> compare def req = Ok (b, mods, out) ->
  (b = true <-> forall v, requested files v ->
     exists h, get (p_std v) def = Some [h] /\ same_shape v h /\ p_kind v = p_kind h /\ host_container (p_cont h)).
Proof.
  intros NC C E. pose proof (collect_inv _ _ C) as I. destruct (compare_inv def req _ I _ _ _ E) as (P1 & _). rewrite P1. split.
  - intros H v Rv. destruct (H _ (requested_key _ _ _ I Rv)) as (h & (D & r & rs & G & PC) & HC). exists h. split; [exact D|].
    destruct I as [I1 I2]. destruct (I1 v Rv) as (l & G2 & Iv). rewrite G in G2. injection G2 as <-.
    destruct (I2 _ _ G) as (_ & _ & AG). pose proof (agree_trans _ _ _ (AG v r Iv (or_introl eq_refl)) (pcompat_agree _ _ PC)) as [S Q]. auto.
  - intros H k K. destruct (get k req) as [l|] eqn:G; [|now apply get_none in G].
    destruct I as [I1 I2]. destruct (I2 _ _ G) as (NE & Q & _). destruct l as [|r rs]; [congruence|].
    destruct (Q r (or_introl eq_refl)) as [Rr Sr]. destruct (H r Rr) as (h & D & S & KK & HC). exists h. split; [|exact HC]. split; [congruence|].
    exists r, rs. split; [exact G|]. apply agree_pcompat; [auto|]. split; auto.
Qed.
Print Assumptions C89_verdict.
(* Whether the collection is accepted does not depend on the order of the scheme files. *)
Theorem C89_order files files' m : (forall v, requested files v -> p_type v <> L "character") ->
  Permutation files files' -> collect files = Ok m -> exists m', collect files' = Ok m'.
Proof.
  intros NC P C.
  assert (RQ : forall v, requested files' v -> requested files v).
  { intros v (f & t & A & B & D). exists f, t. split; [|auto]. apply Permutation_sym in P. eapply Permutation_in; eauto. }
  pose proof (collect_inv _ _ C) as [I1 I2].
  apply (collect_ok (requested files)).
  - exact NC.
  - intros v w Rv Rw S. destruct (I1 v Rv) as (l & G & Iv). destruct (I1 w Rw) as (l' & G' & Iw). rewrite S, G' in G. injection G as ->.
    destruct (I2 _ _ G') as (_ & _ & AG). auto.
  - exact RQ.
  - intros f t If It. eapply collect_tables; [exact C| |exact It]. apply Permutation_sym in P. eapply Permutation_in; eauto.
Qed.
Print Assumptions C89_order.
(* The modules that will be used are those of the matched host variables, each once. *)
Theorem C89_modules files req def mods out : collect files = Ok req -> compare def req = Ok (true, mods, out) ->
  NoDup mods /\
  forall x, In x mods <-> exists v h i, requested files v /\ get (p_std v) def = Some [h] /\ In i (split_on " " (p_cont h)) /\
                                      (i = L "MODULE_" ++ x \/ i = L "MODULE" /\ x = []).
Proof.
  intros C E. pose proof (collect_inv _ _ C) as I. destruct (compare_inv def req _ I _ _ _ E) as (P1 & _ & P3 & _ & P5).
  split; [exact P5|]. intros x. rewrite P3. split.
  - intros (k & h & K & CK & J). apply in_flat_map in J as (i & Ii & J). apply item_modules_spec in J.
    destruct (get k req) as [l|] eqn:G; [|now apply get_none in G].
    destruct I as [I1 I2]. destruct (I2 _ _ G) as (NE & Q & _). destruct l as [|r rs]; [congruence|]. destruct (Q r (or_introl eq_refl)) as [Rr Sr].
    exists r, h, i. destruct CK as [D _]. subst k. auto.
  - intros (v & h & i & Rv & D & Ii & J). pose proof (requested_key _ _ _ I Rv) as K. destruct (proj1 P1 eq_refl _ K) as (h' & CK & _).
    assert (h' = h) as -> by (destruct CK as [D' _]; congruence). exists (p_std v), h. split; [exact K|]. split; [exact CK|].
    apply in_flat_map. exists i. split; [exact Ii|]. now apply item_modules_spec.
Qed.
Print Assumptions C89_modules.
(* An example: two schemes, three variables. *)
Definition pv (std units local ty : string) (rank : nat) (kind intent cont : string) : pvar :=
  mkP (L std) (L units) (L local) (L ty) rank (L kind) (L intent) (L cont) None None None.
Definition a1 := pv "air_temperature" "K" "t" "real" 2 "kind_phys" "inout" "MODULE_a SCHEME_a SUBROUTINE_a_run".
Definition a2 := pv "scheme_name" "none" "nm" "character" 0 "len=*" "in" "MODULE_a SCHEME_a SUBROUTINE_a_run".
Definition b1 := pv "air_temperature" "C" "temp" "real" 2 "kind_phys" "inout" "MODULE_b SCHEME_b SUBROUTINE_b_run".
Definition h1 := pv "air_temperature" "K" "gfs%t" "real" 2 "kind_phys" "none" "MODULE_host TYPE_gfs_t".
Definition h2 := pv "scheme_name" "none" "sname" "character" 0 "len=64" "none" "MODULE_names".
Definition host : meta := [(L "air_temperature", [h1]); (L "scheme_name", [h2])].
Example C89_ex : exists req out, collect [[[a1; a2]]; [[b1]]] = Ok req /\ compare host req = Ok (true, [L "host"; L "names"], out) /\
  map (fun p => (fst p, map p_target (snd p))) out = [(L "air_temperature", [Some (L "gfs%t"); Some (L "gfs%t")]); (L "scheme_name", [Some (L "sname")])].
Proof. eexists. eexists. split; [vm_compute; reflexivity|]. split; [vm_compute; reflexivity|vm_compute; reflexivity]. Qed.
Example C89_ex_types : forall v, requested [[[a1]]; [[b1]]] v -> p_type v <> L "character".
Proof. intros v (f & t & [<-|[<-|[]]] & [<-|[]] & [<-|[]]); discriminate. Qed.
(* Refuted for character variables: three schemes ask for lengths * , 10 and 20 and the
   host has length 10; all is accepted.  In another order of the files it is not. *)
Definition c0 := pv "label" "none" "c" "character" 0 "len=*" "in" "MODULE_a SCHEME_a SUBROUTINE_a_run".
Definition c1 := pv "label" "none" "c" "character" 0 "len=10" "in" "MODULE_b SCHEME_b SUBROUTINE_b_run".
Definition c2 := pv "label" "none" "c" "character" 0 "len=20" "in" "MODULE_c SCHEME_c SUBROUTINE_c_run".
Definition hc := pv "label" "none" "lab" "character" 0 "len=10" "none" "MODULE_host".
Theorem C89_character_refuted :
  exists files files' def req mods out v, Permutation files files' /\ collect files = Ok req /\ compare def req = Ok (true, mods, out) /\
  requested files v /\ (exists h, get (p_std v) def = Some [h] /\ p_kind v <> p_kind h /\ p_kind v <> L "len=*") /\
  collect files' = Raise "Exception".
Proof.
  exists [[[c0]]; [[c1]]; [[c2]]], [[[c1]]; [[c2]]; [[c0]]], [(L "label", [hc])]. eexists. eexists. eexists. exists c2.
  split; [apply (Permutation_cons_append [[[c1]]; [[c2]]] [[c0]])|].
  split; [vm_compute; reflexivity|]. split; [vm_compute; reflexivity|]. split; [exists [[c2]], [c2]; cbn; auto|].
  split; [exists hc; split; [reflexivity|split; discriminate]|]. vm_compute. reflexivity.
Qed.
Print Assumptions C89_character_refuted.

(* ---------------- C90 ---------------- *)
(* For every requested variable the result has exactly the conversions its intent needs,
   and none if the units are those of the host. *)
Theorem C90_registered files req def mods out : collect files = Ok req -> compare def req = Ok (true, mods, out) ->
  forall v, requested files v -> p_in v = None -> p_out v = None -> In (p_intent v) [L "in"; L "out"; L "inout"] ->
  exists h l v', get (p_std v) def = Some [h] /\ get (p_std v) out = Some l /\ In v' l /\ matched h v v' /\
    match str_eqb (p_units v) (p_units h), str_eqb (p_intent v) (L "out"), str_eqb (p_intent v) (L "in") with
    | true, _, _ => p_in v' = None /\ p_out v' = None
    | false, true, _ => p_in v' = None /\ exists t, p_out v' = Some t /\ conversion (p_units v) (p_units h) t
    | false, false, true => p_out v' = None /\ exists t, p_in v' = Some t /\ conversion (p_units h) (p_units v) t
    | false, false, false => (exists t, p_in v' = Some t /\ conversion (p_units h) (p_units v) t) /\
                             exists t, p_out v' = Some t /\ conversion (p_units v) (p_units h) t
    end.
Proof.
  intros C E v Rv N1 N2 HI. pose proof (collect_inv _ _ C) as I. destruct (compare_inv def req _ I _ _ _ E) as (P1 & P2 & _).
  pose proof (requested_key _ _ _ I Rv) as K. destruct (proj1 P1 eq_refl _ K) as (h & CK & _).
  destruct (P2 _ _ K CK) as (l & l' & G & O & F). destruct I as [I1 I2]. destruct (I1 v Rv) as (l0 & G3 & Iv). rewrite G in G3. injection G3 as <-.
  assert (X : exists v', In v' l' /\ matched h v v' /\ acted h v v').
  { clear -F Iv. induction F as [|a b l l' H _ IH]; [destruct Iv|]. destruct Iv as [<-|Iv]; [exists b; split; [now left|apply H]|].
    destruct (IH Iv) as (v' & J & M). exists v'. split; [now right|exact M]. }
  destruct X as (v' & J & M & A1 & A2). exists h, l', v'. destruct CK as [D _]. do 4 (split; [assumption|]).
  destruct (str_eqb (p_units v) (p_units h)) eqn:U.
  - apply str_eqb_eq in U. destruct (A1 U) as [-> ->]. auto.
  - apply str_eqb_neq in U. destruct (A2 U) as (B1 & B2 & B3). destruct HI as [HI|[HI|[HI|[]]]]; rewrite <- HI; cbn.
    + destruct (B1 (eq_sym HI)) as (t & X & Y & Z). rewrite Z. eauto.
    + destruct (B2 (eq_sym HI)) as (t & X & Y & Z). rewrite Z. eauto.
    + destruct (B3 (eq_sym HI)) as (t & u & X & X2 & Y & Z). eauto 6.
Qed.
Print Assumptions C90_registered.
Lemma si_identifiers : forallb (fun p => match units_to_string (L (fst p)), to_identifier (L (fst p)) with Ok a, Ok b => str_eqb a b | _, _ => false end) si = true.
Proof. vm_compute. reflexivity. Qed.
Lemma si_identifier n d s : In (n, d) si -> units_to_string (L n) = Ok s -> to_identifier (L n) = Ok s.
Proof.
  intros I E. pose proof (proj1 (forallb_forall _ _) si_identifiers _ I) as H. cbn [fst] in H. rewrite E in H.
  destruct (to_identifier (L n)) as [b|]; [|discriminate]. apply str_eqb_eq in H. now subst.
Qed.
(* A registered conversion expresses the same physical quantity in the other units. *)
Theorem C90_preserves_quantity a b t : conversion a b t ->
  exists n1 d1 n2 d2, In (n1, d1) si /\ In (n2, d2) si /\ to_identifier a = to_identifier (L n1) /\ to_identifier b = to_identifier (L n2) /\
    u_dim d1 = u_dim d2 /\ forall x, exists y, apply_template t x = Some y /\ (quantity d2 y == quantity d1 x)%Q.
Proof.
  intros (s1 & s2 & E1 & E2 & E3). change (L "__to__") with to_sep in E3.
  destruct (fun_checked _ _ _ E3) as (n1 & d1 & n2 & d2 & p & q & F1 & F2 & F3 & F4 & F5 & F6 & F7 & F8 & _).
  destruct (si_find_ok _ _ _ F1) as [I1 N1]. destruct (si_find_ok _ _ _ F2) as [I2 N2].
  exists n1, d1, n2, d2. rewrite (si_identifier _ _ _ I1 N1), (si_identifier _ _ _ I2 N2). do 5 (split; [assumption|]).
  intros x. exists (p * x + q)%Q. split; [unfold apply_template; now rewrite F3|]. unfold quantity.
  transitivity ((u_scale d2 * p) * x + (u_scale d2 * q + u_offset d2))%Q; [ring|]. rewrite F5, F6. reflexivity.
Qed.
Print Assumptions C90_preserves_quantity.
(* For intent inout the two conversions undo each other. *)
Theorem C90_round_trip a b t u : conversion a b t -> conversion b a u ->
  forall x, exists y z, apply_template t x = Some y /\ apply_template u y = Some z /\ (z == x)%Q.
Proof.
  intros (s1 & s2 & E1 & E2 & E3) (s3 & s4 & E4 & E5 & E6).
  rewrite E2 in E4. injection E4 as <-. rewrite E1 in E5. injection E5 as <-. change (L "__to__") with to_sep in *. intros x.
  destruct (fun_checked _ _ _ E3) as (n1 & d1 & n2 & d2 & p & q & F1 & F2 & F3 & F4 & F5 & F6 & F7 & F8 & _).
  destruct (fun_checked _ _ _ E6) as (n2' & d2' & n1' & d1' & p' & q' & G1 & G2 & G3 & G4 & G5 & G6 & G7 & G8 & _).
  rewrite F1 in G2. injection G2 as <- <-. rewrite F2 in G1. injection G1 as <- <-.
  exists (p * x + q)%Q, (p' * (p * x + q) + q')%Q. unfold apply_template. rewrite F3, G3. split; [reflexivity|]. split; [reflexivity|].
  apply (Qmult_inj_l _ _ (u_scale d1) G8).
  transitivity ((u_scale d1 * p') * (p * x + q) + u_scale d1 * q')%Q; [ring|]. rewrite G5.
  transitivity (u_scale d2 * p * x + (u_scale d2 * q + (u_scale d1 * q')))%Q; [ring|]. rewrite F5.
  assert (Z : (u_scale d2 * q + u_scale d1 * q' == 0)%Q).
  { transitivity ((u_scale d2 * q + u_offset d2) - u_offset d2 + ((u_scale d1 * q' + u_offset d1) - u_offset d1))%Q; [ring|]. rewrite F6, G6. ring. }
  rewrite Z. ring.
Qed.
Print Assumptions C90_round_trip.
Example C90_ex : exists req out, collect [[[a1; a2]]; [[b1]]] = Ok req /\ compare host req = Ok (true, [L "host"; L "names"], out) /\
  map (fun p => map (fun v => (p_in v, p_out v)) (snd p)) out =
    [[(None, None); (Some (L "{var}-273.15{kind}"), Some (L "{var}+273.15{kind}"))]; [(None, None)]].
Proof. eexists. eexists. split; [vm_compute; reflexivity|]. split; [vm_compute; reflexivity|vm_compute; reflexivity]. Qed.
(* If the table has no function for the pair, the whole run stops: units that differ are
   never passed unconverted. *)
Theorem C90_missing_stops files req def mods out v h : collect files = Ok req -> requested files v -> get (p_std v) def = Some [h] ->
  p_units v <> p_units h -> In (p_intent v) [L "in"; L "inout"] -> (forall t, ~ conversion (p_units h) (p_units v) t) ->
  compare def req <> Ok (true, mods, out).
Proof.
  intros C Rv D U HI NC E. pose proof (collect_inv _ _ C) as I. destruct (compare_inv def req _ I _ _ _ E) as (P1 & P2 & _).
  pose proof (requested_key _ _ _ I Rv) as K. destruct (proj1 P1 eq_refl _ K) as (h' & CK & _).
  assert (h' = h) as -> by (destruct CK as [D' _]; congruence).
  destruct (P2 _ _ K CK) as (l & l' & G & O & F). destruct I as [I1 I2]. destruct (I1 v Rv) as (l0 & G3 & Iv). rewrite G in G3. injection G3 as <-.
  assert (X : exists v', acted h v v').
  { clear -F Iv. induction F as [|a b l l' H _ IH]; [destruct Iv|]. destruct Iv as [<-|Iv]; [exists b; apply H|auto]. }
  destruct X as (v' & _ & A). destruct (A U) as (B1 & _ & B3). destruct HI as [HI|[HI|[]]].
  - destruct (B1 (eq_sym HI)) as (t & X & _). exact (NC t X).
  - destruct (B3 (eq_sym HI)) as (t & u & X & _). exact (NC t X).
Qed.
Print Assumptions C90_missing_stops.
Definition b2 := pv "air_temperature" "F" "temp" "real" 2 "kind_phys" "in" "MODULE_b SCHEME_b SUBROUTINE_b_run".
Example C90_missing_ex : (exists req, collect [[[b2]]] = Ok req /\ compare host req = Raise "Exception") /\ forall t, ~ conversion (L "K") (L "F") t.
Proof.
  split; [eexists; split; vm_compute; reflexivity|]. intros t (a & b & A & B & F).
  vm_compute in A, B. injection A as <-. injection B as <-. vm_compute in F. discriminate.
Qed.
Example C89_order_ex : exists m m', collect [[[a1]]; [[b1]]] = Ok m /\ collect [[[b1]]; [[a1]]] = Ok m' /\ m <> m'.
Proof. eexists. eexists. split; [vm_compute; reflexivity|]. split; [vm_compute; reflexivity|]. discriminate. Qed.
