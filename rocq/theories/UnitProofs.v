From Verif Require Import UnitModel UnitSpec.
Open Scope nat_scope.
Open Scope list_scope.

Definition si_name (n : string) : option str := match units_to_string (L n) with Ok s => Some s | Raise _ => None end.
Definition si_find (s : str) : option (string * unit_def) :=
  List.find (fun p => match si_name (fst p) with Some x => str_eqb x s | None => false end) si.

Definition check_entry (e : str * str) : bool :=
  let '(n, t) := e in
  forallb (fun i =>
    let a := firstn i n in let b := skipn (i + 6) n in
    if str_eqb n (a ++ to_sep ++ b) then
      match si_find a, si_find b, affine t with
      | Some (_, d1), Some (_, d2), Some (p, q) =>
          String.eqb (u_dim d1) (u_dim d2) && Qeq_bool (u_scale d2 * p) (u_scale d1) &&
          Qeq_bool (u_scale d2 * q + u_offset d2) (u_offset d1) && negb (Qle_bool p 0)
          && negb (Qeq_bool (u_scale d2) 0) &&
          match find_fun unit_functions (b ++ to_sep ++ a) with Some _ => true | None => false end
      | _, _, _ => false
      end
    else true) (seq 0 (S (length n))).

Lemma all_checked : forallb check_entry unit_functions = true.
Proof. vm_compute. reflexivity. Qed.

Lemma find_fun_in t n v : find_fun t n = Some v -> In (n, v) t.
Proof.
  induction t as [|[k x] t IH]; cbn [find_fun]; [discriminate|].
  destruct (str_eqb k n) eqn:E; [|right; auto]. apply str_eqb_eq in E. intros H. injection H as ->. subst k. now left.
Qed.

Lemma si_find_ok s n d : si_find s = Some (n, d) -> In (n, d) si /\ units_to_string (L n) = Ok s.
Proof.
  unfold si_find. intros H. apply find_some in H. destruct H as [H1 H2]. split; [exact H1|].
  cbn [fst] in H2. unfold si_name in H2. destruct (units_to_string (L n)) as [x|e]; [|discriminate].
  apply str_eqb_eq in H2. now subst.
Qed.

Lemma fun_checked s1 s2 t : find_fun unit_functions (s1 ++ to_sep ++ s2) = Some t ->
  exists n1 d1 n2 d2 p q,
    si_find s1 = Some (n1, d1) /\ si_find s2 = Some (n2, d2) /\ affine t = Some (p, q) /\
    u_dim d1 = u_dim d2 /\ (u_scale d2 * p == u_scale d1)%Q /\
    (u_scale d2 * q + u_offset d2 == u_offset d1)%Q /\ (0 < p)%Q /\ (~ u_scale d2 == 0)%Q /\
    exists r, find_fun unit_functions (s2 ++ to_sep ++ s1) = Some r.
Proof.
  intros H. apply find_fun_in in H.
  pose proof (proj1 (forallb_forall _ _) all_checked _ H) as C.
  unfold check_entry in C. rewrite forallb_forall in C.
  specialize (C (length s1)). set (n := s1 ++ to_sep ++ s2) in *.
  assert (I : In (length s1) (seq 0 (S (length n)))).
  { apply in_seq. subst n. rewrite app_length. lia. }
  specialize (C I). cbv zeta in C.
  assert (A : firstn (length s1) n = s1).
  { subst n. rewrite firstn_app, Nat.sub_diag, firstn_O, app_nil_r. apply firstn_all. }
  assert (B : skipn (length s1 + 6) n = s2).
  { subst n. rewrite skipn_app. rewrite skipn_all2 by lia.
    replace (length s1 + 6 - length s1) with 6 by lia. reflexivity. }
  rewrite A, B in C. subst n. rewrite str_eqb_refl in C.
  destruct (si_find s1) as [[n1 d1]|] eqn:E1; [|discriminate].
  destruct (si_find s2) as [[n2 d2]|] eqn:E2; [|discriminate].
  destruct (affine t) as [[p q]|]; [|discriminate].
  destruct (find_fun unit_functions (s2 ++ to_sep ++ s1)) as [r|]; [|now rewrite andb_false_r in C].
  repeat (apply andb_true_iff in C; destruct C as [C ?]).
  exists n1, d1, n2, d2, p, q.
  split; [reflexivity|]. split; [reflexivity|]. split; [reflexivity|].
  split; [now apply String.eqb_eq|]. split; [now apply Qeq_bool_iff|]. split; [now apply Qeq_bool_iff|].
  split.
  - apply Qnot_le_lt. intros K. apply Qle_bool_iff in K. rewrite K in *. discriminate.
  - split; [|eexists; reflexivity]. intros K. apply Qeq_bool_iff in K. rewrite K in *. discriminate.
Qed.

Lemma convstrs_inv u1 u2 f r : get_unit_convstrs u1 u2 = Ok (f, r) ->
  exists s1 s2, units_to_string u1 = Ok s1 /\ units_to_string u2 = Ok s2 /\
    find_fun unit_functions (s1 ++ to_sep ++ s2) = Some f /\
    find_fun unit_functions (s2 ++ to_sep ++ s1) = Some r.
Proof.
  unfold get_unit_convstrs. intros H.
  apply bind_ok in H. destruct H as (s1 & E1 & H). apply bind_ok in H. destruct H as (s2 & E2 & H).
  destruct (find_fun unit_functions (s1 ++ to_sep ++ s2)) as [f'|] eqn:Ef; [|discriminate].
  destruct (find_fun unit_functions (s2 ++ to_sep ++ s1)) as [r'|] eqn:Er; [|discriminate].
  injection H as -> ->. exists s1, s2. auto.
Qed.
Lemma convstrs_intro u1 u2 s1 s2 f r : units_to_string u1 = Ok s1 -> units_to_string u2 = Ok s2 ->
  find_fun unit_functions (s1 ++ to_sep ++ s2) = Some f ->
  find_fun unit_functions (s2 ++ to_sep ++ s1) = Some r -> get_unit_convstrs u1 u2 = Ok (f, r).
Proof. intros E1 E2 E3 E4. unfold get_unit_convstrs. rewrite E1, E2. cbn [bind]. rewrite E3, E4. reflexivity. Qed.

Lemma convert_quantity u1 u2 f r : get_unit_convstrs u1 u2 = Ok (f, r) ->
  exists n1 d1 n2 d2 p q, In (n1, d1) si /\ In (n2, d2) si /\
    units_to_string u1 = units_to_string (L n1) /\ units_to_string u2 = units_to_string (L n2) /\
    u_dim d1 = u_dim d2 /\ affine f = Some (p, q) /\ (0 < p)%Q /\ (~ u_scale d2 == 0)%Q /\
    (forall x, quantity d2 (p * x + q) == quantity d1 x)%Q.
Proof.
  intros H. destruct (convstrs_inv _ _ _ _ H) as (s1 & s2 & E1 & E2 & E3 & E4).
  destruct (fun_checked _ _ _ E3) as (n1 & d1 & n2 & d2 & p & q & F1 & F2 & F3 & F4 & F5 & F6 & F7 & F8 & _).
  destruct (si_find_ok _ _ _ F1) as [I1 N1]. destruct (si_find_ok _ _ _ F2) as [I2 N2].
  exists n1, d1, n2, d2, p, q. rewrite E1, E2, N1, N2.
  repeat (split; [first [assumption|reflexivity]|]).
  intros x. unfold quantity.
  transitivity ((u_scale d2 * p) * x + (u_scale d2 * q + u_offset d2))%Q; [ring|].
  rewrite F5, F6. reflexivity.
Qed.

Lemma convert_roundtrip u1 u2 f r : get_unit_convstrs u1 u2 = Ok (f, r) ->
  forall x, exists y z, apply_template f x = Some y /\ apply_template r y = Some z /\ (z == x)%Q.
Proof.
  intros H x.
  destruct (convstrs_inv _ _ _ _ H) as (s1 & s2 & E1 & E2 & E3 & E4).
  destruct (fun_checked _ _ _ E3) as (n1 & d1 & n2 & d2 & p & q & F1 & F2 & F3 & F4 & F5 & F6 & F7 & F8 & _).
  destruct (fun_checked _ _ _ E4) as (n2' & d2' & n1' & d1' & p' & q' & G1 & G2 & G3 & G4 & G5 & G6 & G7 & G8 & _).
  rewrite F1 in G2. injection G2 as <- <-. rewrite F2 in G1. injection G1 as <- <-.
  unfold apply_template. rewrite F3, G3. eexists. eexists. split; [reflexivity|]. split; [reflexivity|].
  (* multiply by the scale of unit 1 *)
  apply (Qmult_inj_l _ _ (u_scale d1) G8).
  transitivity ((u_scale d1 * p') * (p * x + q) + u_scale d1 * q')%Q; [ring|]. rewrite G5.
  transitivity (u_scale d2 * p * x + (u_scale d2 * q + (u_scale d1 * q')))%Q; [ring|]. rewrite F5.
  assert (Z : (u_scale d2 * q + u_scale d1 * q' == 0)%Q).
  { transitivity ((u_scale d2 * q + u_offset d2) - u_offset d2 + ((u_scale d1 * q' + u_offset d1) - u_offset d1))%Q; [ring|].
    rewrite F6, G6. ring. }
  rewrite Z. ring.
Qed.

Lemma convert_triangle u1 u2 u3 f12 r12 f23 r23 f13 r13 :
  get_unit_convstrs u1 u2 = Ok (f12, r12) -> get_unit_convstrs u2 u3 = Ok (f23, r23) ->
  get_unit_convstrs u1 u3 = Ok (f13, r13) ->
  forall x, exists y z z', apply_template f12 x = Some y /\ apply_template f23 y = Some z /\
    apply_template f13 x = Some z' /\ (z == z')%Q.
Proof.
  intros H1 H2 H3 x.
  destruct (convstrs_inv _ _ _ _ H1) as (s1 & s2 & E1 & E2 & A1 & _).
  destruct (convstrs_inv _ _ _ _ H2) as (s2' & s3 & E2' & E3 & A2 & _).
  destruct (convstrs_inv _ _ _ _ H3) as (s1' & s3' & E1' & E3' & A3 & _).
  rewrite E1 in E1'. injection E1' as <-. rewrite E2 in E2'. injection E2' as <-. rewrite E3 in E3'. injection E3' as <-.
  destruct (fun_checked _ _ _ A1) as (n1 & d1 & n2 & d2 & p & q & F1 & F2 & F3 & F4 & F5 & F6 & F7 & F8 & _).
  destruct (fun_checked _ _ _ A2) as (n2' & d2' & n3 & d3 & p2 & q2 & G1 & G2 & G3 & G4 & G5 & G6 & G7 & G8 & _).
  destruct (fun_checked _ _ _ A3) as (n1' & d1' & n3' & d3' & p3 & q3 & K1 & K2 & K3 & K4 & K5 & K6 & K7 & K8 & _).
  rewrite F1 in K1. injection K1 as <- <-. rewrite F2 in G1. injection G1 as <- <-. rewrite G2 in K2. injection K2 as <- <-.
  unfold apply_template. rewrite F3, G3, K3. eexists. eexists. eexists.
  split; [reflexivity|]. split; [reflexivity|]. split; [reflexivity|].
  apply (Qmult_inj_l _ _ (u_scale d3) G8).
  assert (M : (quantity d3 (p2 * (p * x + q) + q2) == quantity d3 (p3 * x + q3))%Q).
  { unfold quantity.
    transitivity ((u_scale d3 * p2) * (p * x + q) + (u_scale d3 * q2 + u_offset d3))%Q; [ring|]. rewrite G5, G6.
    transitivity ((u_scale d2 * p) * x + (u_scale d2 * q + u_offset d2))%Q; [ring|]. rewrite F5, F6.
    transitivity ((u_scale d3 * p3) * x + (u_scale d3 * q3 + u_offset d3))%Q; [|ring]. rewrite K5, K6. reflexivity. }
  unfold quantity in M. apply Qplus_inj_r in M. exact M.
Qed.

Lemma convert_symmetric u1 u2 f r : get_unit_convstrs u1 u2 = Ok (f, r) -> get_unit_convstrs u2 u1 = Ok (r, f).
Proof.
  intros H. destruct (convstrs_inv _ _ _ _ H) as (s1 & s2 & E1 & E2 & E3 & E4).
  now apply (convstrs_intro u2 u1 s2 s1).
Qed.
