(* TreeProps.v: C41 (the call tree of a suite), C75 (the schemes of the other phases). *)
From Verif Require Import PyStr ReqModel ReqProofs TreeModel TreeSpec.
From Coq Require Import ZArith Lia.
Open Scope nat_scope.
Open Scope list_scope.

(* ---- induction over the trees ---- *)
Section XmlInd.
Variable P : xml -> Prop.
Hypothesis HS : forall n, P (XScheme n).
Hypothesis HB : forall name loop xs, Forall P xs -> P (XSubcycle name loop xs).
Hypothesis HT : forall xs, Forall P xs -> P (XTime xs).
Hypothesis HO : forall t, P (XOther t).
Fixpoint xml_ind' (x : xml) : P x :=
  match x with
  | XScheme n => HS n
  | XSubcycle name loop xs => HB name loop xs ((fix all l : Forall P l := match l with [] => Forall_nil _ | y :: r => Forall_cons _ (xml_ind' y) (all r) end) xs)
  | XTime xs => HT xs ((fix all l : Forall P l := match l with [] => Forall_nil _ | y :: r => Forall_cons _ (xml_ind' y) (all r) end) xs)
  | XOther t => HO t
  end.
End XmlInd.
Section PartInd.
Variable P : part -> Prop.
Hypothesis HS : forall n, P (PScheme n).
Hypothesis HB : forall name loop xs, Forall P xs -> P (PSub name loop xs).
Hypothesis HT : forall xs, Forall P xs -> P (PTime xs).
Hypothesis HV : forall i d xs, Forall P xs -> P (PVert i d xs).
Fixpoint part_ind' (x : part) : P x :=
  match x with
  | PScheme n => HS n
  | PSub name loop xs => HB name loop xs ((fix all l : Forall P l := match l with [] => Forall_nil _ | y :: r => Forall_cons _ (part_ind' y) (all r) end) xs)
  | PTime xs => HT xs ((fix all l : Forall P l := match l with [] => Forall_nil _ | y :: r => Forall_cons _ (part_ind' y) (all r) end) xs)
  | PVert i d xs => HV i d xs ((fix all l : Forall P l := match l with [] => Forall_nil _ | y :: r => Forall_cons _ (part_ind' y) (all r) end) xs)
  end.
End PartInd.
Lemma new_sub limit find name loop xs :
  new_suite_object limit find (XSubcycle name loop xs) =
  match py_int (match loop with Some l => l | None => L "1" end) with
  | None => _ <- loop_property limit find ;; Raise "AttributeError"
  | Some _ => ps <- new_parts limit find xs ;; Ok (PSub name (match loop with Some l => l | None => L "1" end) ps)
  end.
Proof. reflexivity. Qed.
Lemma new_time limit find xs : new_suite_object limit find (XTime xs) = (ps <- new_parts limit find xs ;; Ok (PTime ps)).
Proof. reflexivity. Qed.
Lemma analyze_sub ld name loop ps o : analyze ld (PSub name loop ps) o = (r <- analyze_all ld ps o ;; Ok (PSub name loop (fst r), snd r)).
Proof. reflexivity. Qed.
Lemma analyze_time ld ps o : analyze ld (PTime ps) o = (r <- analyze_all ld ps o ;; Ok (PTime (fst r), snd r)).
Proof. reflexivity. Qed.
Lemma analyze_vert ld i d ps o : analyze ld (PVert i d ps) o = (r <- analyze_all ld ps o ;; Ok (PVert i d (fst r), snd r)).
Proof. reflexivity. Qed.
Lemma write_time l f ps : write l f (PTime ps) = write_all l f ps.
Proof. reflexivity. Qed.
Lemma write_vert l f i d ps : write l f (PVert i d ps) = (body <- write_all l f ps ;; Ok (Do i d :: body ++ [EndDo])).
Proof. reflexivity. Qed.
Lemma write_sub l f name loop ps : write l f (PSub name loop ps) =
  (n <- loop_property l f ;; body <- write_all l f ps ;; Ok (Do (match name with Some s => s | None => L "subcycle_index" end) n :: body ++ [EndDo])).
Proof. reflexivity. Qed.

(* ---- the property ---- *)
Lemma loop_never limit find : loop_property limit find = Raise "RecursionError".
Proof. induction limit as [|n IH]; [reflexivity|]. cbn. now rewrite IH. Qed.

(* ---- building ---- *)
Lemma new_parts_order limit find xs : Forall (fun x => forall p, new_suite_object limit find x = Ok p -> in_order x (schemes p)) xs ->
  forall ps, new_parts limit find xs = Ok ps -> all_in_order xs (flat_map schemes ps).
Proof.
  induction 1 as [|x xs H F IH]; intros ps E; cbn in E.
  - injection E as <-. constructor.
  - apply bind_ok in E as (p & E1 & E). apply bind_ok in E as (q & E2 & E). injection E as <-. cbn. constructor; auto.
Qed.
Lemma new_order limit find x : forall p, new_suite_object limit find x = Ok p -> in_order x (schemes p).
Proof.
  induction x as [n|name loop xs IH|xs IH|t] using xml_ind'; intros p E.
  - injection E as <-. constructor.
  - rewrite new_sub in E. destruct (py_int _) in E; [|rewrite loop_never in E; discriminate]. apply bind_ok in E as (ps & E1 & E). injection E as <-. cbn. constructor.
    eapply new_parts_order; eauto.
  - rewrite new_time in E. apply bind_ok in E as (ps & E1 & E). injection E as <-. cbn. constructor. eapply new_parts_order; eauto.
  - discriminate.
Qed.
(* The scheme list of a group is the list of its scheme elements in document order. *)
Theorem C41_flatten : forall limit find run xs ps, new_group limit find run xs = Ok ps -> all_in_order xs (group_schemes ps).
Proof.
  intros limit find run xs ps E. unfold new_group in E. apply bind_ok in E as (qs & E & X). injection X as <-.
  assert (all_in_order xs (flat_map schemes qs)) as A. { eapply new_parts_order; eauto. apply Forall_forall. intros x _. apply new_order. }
  unfold group_schemes. destruct (_ && _); [|exact A]. cbn. now rewrite app_nil_r.
Qed.
Print Assumptions C41_flatten.
Definition demo : list xml := [XScheme (L "a"); XSubcycle None (Some (L "3")) [XScheme (L "b"); XTime [XScheme (L "c")]]; XScheme (L "a")].
Example C41_flatten_ok : exists ps, new_group 900 (fun _ => None) true demo = Ok ps /\ group_schemes ps = map L ["a"; "b"; "c"; "a"]%string.
Proof. eexists. split; vm_compute; reflexivity. Qed.

(* A group is accepted exactly when it has no unknown elements and every loop count is an
   integer; the recursion limit plays no part in it. *)
Definition good (x : xml) : Prop := (forall t, ~ inside (XOther t) x) /\ (forall name l ys, inside (XSubcycle name (Some l) ys) x -> exists n, py_int l = Some n).
Lemma new_parts_good limit find xs : Forall (fun x => (exists p, new_suite_object limit find x = Ok p) <-> good x) xs ->
  (exists ps, new_parts limit find xs = Ok ps) <-> forall x, In x xs -> good x.
Proof.
  induction 1 as [|x xs H F IH]; cbn.
  - split; [intros _ x []|]. intros _. eauto.
  - split.
    + intros (ps & E) y [<-|I].
      * apply bind_ok in E as (p & E & _). apply H. eauto.
      * apply bind_ok in E as (p & _ & E). apply bind_ok in E as (q & E & _). apply IH; eauto.
    + intros G. destruct (proj2 H) as (p & E1); [apply G; now left|]. destruct (proj2 IH) as (q & E2); [intros y Y; apply G; now right|].
      exists (p :: q). rewrite E1. cbn. rewrite E2. reflexivity.
Qed.
Lemma new_good limit find x : (exists p, new_suite_object limit find x = Ok p) <-> good x.
Proof.
  induction x as [n|name loop xs IH|xs IH|t] using xml_ind'.
  - split; [|cbn; eauto]. intros _. split; [intros t H; inversion H|intros nm l ys H; inversion H].
  - rewrite new_sub. assert (D : match loop with Some l => l | None => L "1" end = L "1" \/ exists l, loop = Some l) by (destruct loop; eauto).
    split.
    + intros (p & E). destruct (py_int _) as [z|] eqn:PI in E; [|rewrite loop_never in E; discriminate]. apply bind_ok in E as (ps & E & _).
      assert (G : forall x, In x xs -> good x) by (apply (new_parts_good limit find); eauto). split.
      * intros t H. inversion H as [|? ? ? y I J|]; subst. destruct (G y I) as [A _]. now apply (A t).
      * intros nm l ys H. inversion H as [E1|? ? ? y I J|]; subst; [eauto|]. destruct (G y I) as [_ B]. eapply B; eauto.
    + intros [A B]. assert (exists z, py_int match loop with Some l => l | None => L "1" end = Some z) as (z & ->).
      { destruct loop as [l|]; [|exists 1%Z; reflexivity]. eapply B. constructor. }
      destruct (proj2 (new_parts_good limit find xs IH)) as (ps & ->); [|cbn; eauto].
      intros x I. split; [intros t H; apply (A t); eapply In_sub; eauto|intros nm l ys H; eapply B; eapply In_sub; eauto].
  - rewrite new_time. split.
    + intros (p & E). apply bind_ok in E as (ps & E & _). assert (G : forall x, In x xs -> good x) by (apply (new_parts_good limit find); eauto). split.
      * intros t H. inversion H as [| |? y I J]; subst. destruct (G y I) as [A _]. now apply (A t).
      * intros nm l ys H. inversion H as [| |? y I J]; subst. destruct (G y I) as [_ B]. eapply B; eauto.
    + intros [A B]. destruct (proj2 (new_parts_good limit find xs IH)) as (ps & ->); [|cbn; eauto].
      intros x I. split; [intros t H; apply (A t); eapply In_time; eauto|intros nm l ys H; eapply B; eapply In_time; eauto].
  - split; [intros (p & E); discriminate|]. intros [A _]. exfalso. apply (A t). constructor.
Qed.
Theorem C41_accepts : forall limit find run xs,
  (exists ps, new_group limit find run xs = Ok ps) <->
  forall x, In x xs -> (forall t, ~ inside (XOther t) x) /\ (forall name l ys, inside (XSubcycle name (Some l) ys) x -> exists n, py_int l = Some n).
Proof.
  intros limit find run xs. rewrite <- (new_parts_good limit find).
  - unfold new_group. split; [intros (ps & E); apply bind_ok in E as (qs & E & _); eauto|]. intros (ps & ->). cbn. eauto.
  - apply Forall_forall. intros x _. apply new_good.
Qed.
Print Assumptions C41_accepts.
Example C41_accepts_ok : ~ exists ps, new_group 900 (fun _ => None) true [XSubcycle None (Some (L "nsub")) [XScheme (L "a")]] = Ok ps.
Proof. intros (ps & E). vm_compute in E. discriminate. Qed.

(* ---- analysis ---- *)
Lemma analyze_all_schemes ld ps : Forall (fun p => forall o q o', analyze ld p o = Ok (q, o') -> schemes q = schemes p) ps ->
  forall o qs o', analyze_all ld ps o = Ok (qs, o') -> flat_map schemes qs = flat_map schemes ps.
Proof.
  induction 1 as [|p ps H F IH]; intros o qs o' E; cbn in E.
  - injection E as <- _. reflexivity.
  - apply bind_ok in E as ([p' o1] & E1 & E). apply bind_ok in E as ([qs' o2] & E2 & E). injection E as <- _. cbn. f_equal; eauto.
Qed.
Lemma analyze_schemes ld p : forall o q o', analyze ld p o = Ok (q, o') -> schemes q = schemes p.
Proof.
  induction p as [n|name loop ps IH|ps IH|i d ps IH] using part_ind'; intros o q o' E.
  - cbn [analyze] in E. unfold analyze_scheme in E. destruct (ask o) as [[index|] o1]; [|injection E as <- _; reflexivity].
    destruct (dim_from_index index); [|discriminate]. destruct (ld s); [|discriminate]. destruct (ask o1) as [[x|] o2]; [discriminate|]. injection E as <- _. reflexivity.
  - rewrite analyze_sub in E. apply bind_ok in E as ([qs o1] & E1 & E). injection E as <- _. cbn. eapply analyze_all_schemes; eauto.
  - rewrite analyze_time in E. apply bind_ok in E as ([qs o1] & E1 & E). injection E as <- _. cbn. eapply analyze_all_schemes; eauto.
  - rewrite analyze_vert in E. apply bind_ok in E as ([qs o1] & E1 & E). injection E as <- _. cbn. eapply analyze_all_schemes; eauto.
Qed.
(* parts without vertical loops *)
Definition no_vert (p : part) : Prop := forall i d qs, ~ part_in (PVert i d qs) p.
Lemma new_no_vert limit find x : forall p, new_suite_object limit find x = Ok p -> no_vert p.
Proof.
  assert (ALL : forall xs, Forall (fun x => forall p, new_suite_object limit find x = Ok p -> no_vert p) xs -> forall ps, new_parts limit find xs = Ok ps -> forall p, In p ps -> no_vert p).
  { induction 1 as [|x0 xs H F IH]; intros ps E p I; cbn in E; [injection E as <-; destruct I|].
    apply bind_ok in E as (q & E1 & E). apply bind_ok in E as (qs & E2 & E). injection E as <-. destruct I as [<-|I]; eauto. }
  induction x as [n|name loop xs IH|xs IH|t] using xml_ind'; intros p E i d qs H.
  - injection E as <-. inversion H.
  - rewrite new_sub in E. destruct (py_int _) in E; [|rewrite loop_never in E; discriminate]. apply bind_ok in E as (ps & E1 & E). injection E as <-.
    inversion H as [|? ? ? q I J| |]; subst. apply (ALL xs IH ps E1 q I _ _ _ J).
  - rewrite new_time in E. apply bind_ok in E as (ps & E1 & E). injection E as <-. inversion H as [| |? q I J|]; subst. apply (ALL xs IH ps E1 q I _ _ _ J).
  - discriminate.
Qed.
Definition single_verts (p : part) : Prop := forall i d qs, part_in (PVert i d qs) p -> exists n, qs = [PScheme n].
Lemma analyze_verts ld p : no_vert p -> forall o q o', analyze ld p o = Ok (q, o') -> single_verts q.
Proof.
  assert (ALL : forall ps, Forall (fun p => no_vert p -> forall o q o', analyze ld p o = Ok (q, o') -> single_verts q) ps -> (forall p, In p ps -> no_vert p) ->
    forall o qs o', analyze_all ld ps o = Ok (qs, o') -> forall q, In q qs -> single_verts q).
  { induction 1 as [|p0 ps H F IH]; intros N o qs o' E q I; cbn in E; [injection E as <- _; destruct I|].
    apply bind_ok in E as ([p' o1] & E1 & E). apply bind_ok in E as ([qs' o2] & E2 & E). injection E as <- _. cbn in I. destruct I as [<-|I].
    - eapply H; eauto. apply N. now left.
    - eapply IH; eauto. intros x X. apply N. now right. }
  induction p as [n|name loop ps IH|ps IH|i d ps IH] using part_ind'; intros N o q o' E.
  - cbn [analyze] in E. unfold analyze_scheme in E. destruct (ask o) as [[index|] o1]; [|injection E as <- _; intros i d qs H; inversion H].
    destruct (dim_from_index index); [|discriminate]. destruct (ld s); [|discriminate]. destruct (ask o1) as [[x|] o2]; [discriminate|]. injection E as <- _.
    intros i d qs H. inversion H as [| | |? ? ? q I J]; subst; [eauto|]. destruct I as [<-|[]]. inversion J.
  - rewrite analyze_sub in E. apply bind_ok in E as ([qs o1] & E1 & E). injection E as <- _. intros i d rs H. inversion H as [|? ? ? q I J| |]; subst.
    eapply ALL; eauto. intros p P i' d' qs' Q. apply (N i' d' qs'). eapply Pi_sub; eauto.
  - rewrite analyze_time in E. apply bind_ok in E as ([qs o1] & E1 & E). injection E as <- _. intros i d rs H. inversion H as [| |? q I J|]; subst.
    eapply ALL; eauto. intros p P i' d' qs' Q. apply (N i' d' qs'). eapply Pi_time; eauto.
  - exfalso. apply (N i d ps). constructor.
Qed.
Lemma new_parts_in limit find xs : forall ps p, new_parts limit find xs = Ok ps -> In p ps -> exists x, In x xs /\ new_suite_object limit find x = Ok p.
Proof.
  induction xs as [|x xs IH]; intros ps p E I; cbn in E; [injection E as <-; destruct I|].
  apply bind_ok in E as (q & E1 & E). apply bind_ok in E as (qs & E2 & E). injection E as <-. destruct I as [<-|I]; [exists x; split; [now left|auto]|].
  destruct (IH qs p E2 I) as (y & Y & Z). exists y. split; [now right|auto].
Qed.
Lemma group_no_vert limit find run xs ps : new_group limit find run xs = Ok ps -> forall p, In p ps -> no_vert p.
Proof.
  intros E p I. unfold new_group in E. apply bind_ok in E as (qs & E & X). injection X as <-.
  assert (A : forall q, In q qs -> no_vert q) by (intros q Q; destruct (new_parts_in _ _ _ _ _ E Q) as (x & _ & X); eapply new_no_vert; eauto).
  destruct (_ && _) in I; [|auto]. destruct I as [<-|[]]. intros i d rs H. inversion H as [| |? q J K|]; subst. apply (A q J _ _ _ K).
Qed.
Lemma analyze_all_in ld ps : forall o qs o' q, analyze_all ld ps o = Ok (qs, o') -> In q qs -> exists p o1 o2, In p ps /\ analyze ld p o1 = Ok (q, o2).
Proof.
  induction ps as [|p ps IH]; intros o qs o' q E I; cbn in E; [injection E as <- _; destruct I|].
  apply bind_ok in E as ([p' o1] & E1 & E). apply bind_ok in E as ([qs' o2] & E2 & E). injection E as <- _. destruct I as [<-|I].
  - exists p, o, o1. split; [now left|auto]. - destruct (IH _ _ _ _ E2 I) as (x & a & b & X & Y). exists x, a, b. split; [now right|auto].
Qed.
(* Whatever the analysis finds out about vertical dimensions, it keeps the schemes and
   their order, and every vertical loop it adds holds one scheme. *)
Theorem C41_analysis_keeps_order : forall limit find run xs ps local_dim answers ps' rest,
  new_group limit find run xs = Ok ps -> analyze_all local_dim ps answers = Ok (ps', rest) ->
  all_in_order xs (group_schemes ps') /\
  forall p i d qs, In p ps' -> part_in (PVert i d qs) p -> exists n, qs = [PScheme n].
Proof.
  intros limit find run xs ps ld o ps' rest E A. split.
  - unfold group_schemes. rewrite (analyze_all_schemes ld ps) with (o := o) (o' := rest); [now apply C41_flatten in E| |exact A]. apply Forall_forall. intros p _. apply analyze_schemes.
  - intros p i d qs I H. destruct (analyze_all_in _ _ _ _ _ _ A I) as (p0 & o1 & o2 & I0 & A0). eapply (analyze_verts ld p0); eauto. eapply group_no_vert; eauto.
Qed.
Print Assumptions C41_analysis_keeps_order.
Definition answers0 : list (option str) := [Some (L "vertical_layer_index"); None; None; None].
Example C41_analysis_ok : exists ps ps' rest, new_group 900 (fun _ => None) true [XScheme (L "a"); XScheme (L "b")] = Ok ps /\
  analyze_all (fun d => if str_eqb d (L "vertical_layer_dimension") then Some (L "nz") else None) ps answers0 = Ok (ps', rest) /\
  ps' = [PTime [PVert (L "vertical_layer_index") (L "nz") [PScheme (L "a")]; PScheme (L "b")]].
Proof. do 3 eexists. split; [vm_compute; reflexivity|]. split; vm_compute; reflexivity. Qed.

(* ---- writing ---- *)
Definition has_sub (p : part) : Prop := exists name loop qs, part_in (PSub name loop qs) p.
Lemma write_all_sub l f ps : Forall (fun p => (has_sub p -> write l f p = Raise "RecursionError") /\ (~ has_sub p -> exists w, write l f p = Ok w)) ps ->
  ((exists p, In p ps /\ has_sub p) -> write_all l f ps = Raise "RecursionError") /\ ((forall p, In p ps -> ~ has_sub p) -> exists w, write_all l f ps = Ok w).
Proof.
  induction 1 as [|p ps [H1 H2] F [IH1 IH2]]; cbn.
  - split; [intros (p & [] & _)|eauto].
  - assert (D : (exists w, write l f p = Ok w) \/ write l f p = Raise "RecursionError").
    { destruct (write l f p) as [w|m] eqn:W; [eauto|]. right. assert (D : ~ ~ has_sub p) by (intros N; destruct (H2 N); discriminate).
      destruct (String.string_dec m "RecursionError") as [->|N]; [reflexivity|]. exfalso. apply D. intros HS. apply H1 in HS. congruence. }
    split.
    + intros (q & [<-|I] & Q); [now rewrite H1|]. destruct D as [(w & ->)| ->]; [|reflexivity]. cbn. rewrite IH1 by eauto. reflexivity.
    + intros N. destruct H2 as (w & ->); [apply N; now left|]. destruct IH2 as (w' & ->); [intros q Q; apply N; now right|]. cbn. eauto.
Qed.
Lemma write_sub_fails l f p : (has_sub p -> write l f p = Raise "RecursionError") /\ (~ has_sub p -> exists w, write l f p = Ok w).
Proof.
  induction p as [n|name loop ps IH|ps IH|i d ps IH] using part_ind'.
  - split; [intros (a & b & c & H); inversion H|cbn; eauto].
  - split; [intros _; rewrite write_sub, loop_never; reflexivity|]. intros N. exfalso. apply N. exists name, loop, ps. constructor.
  - rewrite write_time. destruct (write_all_sub l f ps IH) as [A B]. split.
    + intros (a & b & c & H). inversion H as [| |? q I J|]; subst. apply A. exists q. split; auto. exists a, b, c. exact J.
    + intros N. apply B. intros p I (a & b & c & J). apply N. exists a, b, c. eapply Pi_time; eauto.
  - rewrite write_vert. destruct (write_all_sub l f ps IH) as [A B]. split.
    + intros (a & b & c & H). inversion H as [| | |? ? ? q I J]; subst. rewrite A; [reflexivity|]. exists q. split; auto. exists a, b, c. exact J.
    + intros N. destruct B as (w & ->); [|cbn; eauto]. intros p I (a & b & c & J). apply N. exists a, b, c. eapply Pi_vert; eauto.
Qed.
(* subcycles survive building and analysis *)
Lemma new_sub_in limit find name loop ys x : forall p, inside (XSubcycle name loop ys) x -> new_suite_object limit find x = Ok p -> has_sub p.
Proof.
  assert (ALL : forall xs y, Forall (fun x => forall p, inside (XSubcycle name loop ys) x -> new_suite_object limit find x = Ok p -> has_sub p) xs -> In y xs ->
     inside (XSubcycle name loop ys) y -> forall ps, new_parts limit find xs = Ok ps -> exists p, In p ps /\ has_sub p).
  { induction xs as [|x0 xs IH]; intros y F I H ps E; [destruct I|]. inversion F as [|? ? H1 F']; subst. cbn in E.
    apply bind_ok in E as (p & E1 & E). apply bind_ok in E as (qs & E2 & E). injection E as <-. destruct I as [->|I].
    - exists p. split; [now left|eauto]. - destruct (IH y F' I H qs E2) as (q & Q & R). exists q. split; [now right|auto]. }
  induction x as [n|nm lp xs IH|xs IH|t] using xml_ind'; intros p H E.
  - inversion H.
  - rewrite new_sub in E. destruct (py_int _) in E; [|rewrite loop_never in E; discriminate]. apply bind_ok in E as (ps & E1 & E). injection E as <-. do 3 eexists. constructor.
  - rewrite new_time in E. apply bind_ok in E as (ps & E1 & E). injection E as <-. inversion H as [| |? y I J]; subst.
    destruct (ALL xs y IH I J ps E1) as (q & Q & a & b & c & R). exists a, b, c. eapply Pi_time; eauto.
  - discriminate.
Qed.
Lemma analyze_sub_in ld p : has_sub p -> forall o q o', analyze ld p o = Ok (q, o') -> has_sub q.
Proof.
  assert (ALL : forall ps y, Forall (fun p => has_sub p -> forall o q o', analyze ld p o = Ok (q, o') -> has_sub q) ps -> In y ps -> has_sub y ->
    forall o qs o', analyze_all ld ps o = Ok (qs, o') -> exists q, In q qs /\ has_sub q).
  { induction ps as [|p0 ps IH]; intros y F I H o qs o' E; [destruct I|]. inversion F as [|? ? H1 F']; subst. cbn in E.
    apply bind_ok in E as ([p' o1] & E1 & E). apply bind_ok in E as ([qs' o2] & E2 & E). injection E as <- _. destruct I as [->|I].
    - exists p'. split; [now left|eauto]. - destruct (IH y F' I H _ _ _ E2) as (q & Q & R). exists q. split; [now right|auto]. }
  induction p as [n|name loop ps IH|ps IH|i d ps IH] using part_ind'; intros (a & b & c & H) o q o' E.
  - inversion H.
  - rewrite analyze_sub in E. apply bind_ok in E as ([qs o1] & E1 & E). injection E as <- _. do 3 eexists. constructor.
  - rewrite analyze_time in E. apply bind_ok in E as ([qs o1] & E1 & E). injection E as <- _. inversion H as [| |? y I J|]; subst.
    destruct (ALL ps y IH I (ex_intro _ a (ex_intro _ b (ex_intro _ c J))) _ _ _ E1) as (q & Q & a' & b' & c' & R). exists a', b', c'. eapply Pi_time; eauto.
  - rewrite analyze_vert in E. apply bind_ok in E as ([qs o1] & E1 & E). injection E as <- _. inversion H as [| | |? ? ? y I J]; subst.
    destruct (ALL ps y IH I (ex_intro _ a (ex_intro _ b (ex_intro _ c J))) _ _ _ E1) as (q & Q & a' & b' & c' & R). exists a', b', c'. eapply Pi_vert; eauto.
Qed.
(* Refuted: a group with a subcycle is never written, whatever the recursion limit:
   reading the loop count reads the loop count. *)
Theorem C41_subcycle_refuted : forall limit find run xs ps local_dim answers ps' rest x name loop ys,
  In x xs -> inside (XSubcycle name loop ys) x ->
  new_group limit find run xs = Ok ps -> analyze_all local_dim ps answers = Ok (ps', rest) ->
  write_all limit find ps' = Raise "RecursionError".
Proof.
  intros limit find run xs ps ld o ps' rest x name loop ys I H E A.
  apply (write_all_sub limit find ps'); [apply Forall_forall; intros p _; apply write_sub_fails|].
  assert (exists p, In p ps /\ has_sub p) as (p & Ip & Hp).
  { unfold new_group in E. apply bind_ok in E as (qs & E & X). injection X as <-.
    assert (exists q, In q qs /\ has_sub q) as (q & Q & (a & b & c & R)).
    { clear -I H E. revert qs E. induction xs as [|y xs IH]; intros qs E; [destruct I|]. cbn in E. apply bind_ok in E as (p & E1 & E). apply bind_ok in E as (qs' & E2 & E). injection E as <-.
      destruct I as [->|I]; [exists p; split; [now left|eapply new_sub_in; eauto]|]. destruct (IH I qs' E2) as (q & Q & R). exists q. split; [now right|auto]. }
    destruct (_ && _); [|exists q; split; [auto|exists a, b, c; auto]]. exists (PTime qs). split; [now left|]. exists a, b, c. eapply Pi_time; eauto. }
  clear -Ip Hp A. revert o ps' rest A. induction ps as [|q ps IH]; intros o ps' rest A; [destruct Ip|]. cbn in A.
  apply bind_ok in A as ([p' o1] & E1 & E). apply bind_ok in E as ([qs' o2] & E2 & E). injection E as <- _. destruct Ip as [->|I].
  - exists p'. split; [now left|eapply analyze_sub_in; eauto]. - destruct (IH I _ _ _ E2) as (r & R1 & R2). exists r. split; [now right|auto].
Qed.
Print Assumptions C41_subcycle_refuted.
Example C41_subcycle_ok : exists ps, new_group 900 (fun _ => None) true demo = Ok ps /\ analyze_all (fun _ => None) ps [] = Ok (ps, []) /\
  write_all 900 (fun _ => None) ps = Raise "RecursionError".
Proof. eexists. split; [vm_compute; reflexivity|]. split; vm_compute; reflexivity. Qed.
(* ... and a loop count given by a variable is not even accepted. *)
Theorem C41_variable_count_refuted : forall limit find name l ys, py_int l = None ->
  new_suite_object limit find (XSubcycle name (Some l) ys) = Raise "RecursionError".
Proof. intros limit find name l ys N. rewrite new_sub, N, loop_never. reflexivity. Qed.
Print Assumptions C41_variable_count_refuted.
Example C41_variable_count_ok : py_int (L "number_of_subcycles") = None. Proof. reflexivity. Qed.

Lemma runs_app val w1 : forall t1, runs val w1 t1 -> forall w2 t2, runs val w2 t2 -> runs val (w1 ++ w2) (t1 ++ t2).
Proof.
  induction 1 as [|n r t H IH|i e body r u t Hb IHb Hr IHr]; intros w2 t2 H2; [exact H2|cbn; constructor; auto|].
  cbn [app]. rewrite <- app_assoc, <- app_assoc. cbn [app]. constructor; auto.
Qed.
(* cutting at the "end do" that belongs to an open loop *)
Fixpoint cut (k : nat) (w : list stmt) : option (list stmt * list stmt) :=
  match w with
  | [] => None
  | Do i e :: r => match cut (S k) r with Some (a, b) => Some (Do i e :: a, b) | None => None end
  | EndDo :: r => match k with 0 => Some ([], r) | S k' => match cut k' r with Some (a, b) => Some (EndDo :: a, b) | None => None end end
  | Call n :: r => match cut k r with Some (a, b) => Some (Call n :: a, b) | None => None end
  end.
Lemma cut_runs val b : forall t, runs val b t -> forall k r, cut k (b ++ r) = match cut k r with Some (x, y) => Some (b ++ x, y) | None => None end.
Proof.
  induction 1 as [|n w t H IH|i e body w u t Hb IHb Hr IHr]; intros k r.
  - cbn [app]. destruct (cut k r) as [[x y]|]; reflexivity.
  - cbn [app cut]. rewrite IH. destruct (cut k r) as [[x y]|]; reflexivity.
  - cbn [app cut]. rewrite <- app_assoc. rewrite IHb. cbn [app cut]. rewrite IHr. destruct (cut k r) as [[x y]|]; [|reflexivity]. now rewrite <- app_assoc.
Qed.
Lemma runs_unique val w : forall t, runs val w t -> forall t', runs val w t' -> t = t'.
Proof.
  induction 1 as [|n r t H IH|i e body r u t Hb IHb Hr IHr]; intros t' H'.
  - inversion H'. reflexivity.
  - inversion H'; subst. f_equal. auto.
  - inversion H' as [| |i' e' body' r' u' t'' Hb' Hr' E]; subst.
    assert (body' = body /\ r' = r) as [-> ->].
    { pose proof (cut_runs val body u Hb 0 (EndDo :: r)) as A. pose proof (cut_runs val body' u' Hb' 0 (EndDo :: r')) as B. cbn [cut] in A, B.
      rewrite app_nil_r in A, B. match goal with H : _ ++ EndDo :: _ = _ ++ EndDo :: _ |- _ => rewrite H in B end. rewrite A in B. injection B as -> ->. auto. }
    rewrite (IHb _ Hb'), (IHr _ Hr'). reflexivity.
Qed.
Lemma means_runs l f val : (forall p t, means val p t -> exists w, write l f p = Ok w /\ runs val w t) /\
  (forall ps t, all_mean val ps t -> exists w, write_all l f ps = Ok w /\ runs val w t).
Proof.
  apply means_mut.
  - intros n. exists [Call n]. split; [reflexivity|]. repeat constructor.
  - intros ps t _ (w & W & R). exists w. rewrite write_time. auto.
  - intros i d ps t _ (w & W & R). rewrite write_vert, W. eexists. split; [reflexivity|]. rewrite <- (app_nil_r (List.concat (List.repeat t (val d)))). constructor; [exact R|constructor].
  - exists []. split; [reflexivity|constructor].
  - intros p ps a b _ (w1 & W1 & R1) _ (w2 & W2 & R2). cbn. rewrite W1, W2. cbn. exists (w1 ++ w2). split; auto. now apply runs_app.
Qed.
Lemma mean_total val ps : (forall p, In p ps -> ~ has_sub p) -> exists t, all_mean val ps t.
Proof.
  assert (ALL : forall ps, Forall (fun p => ~ has_sub p -> exists t, means val p t) ps -> (forall p, In p ps -> ~ has_sub p) -> exists t, all_mean val ps t).
  { induction 1 as [|p qs H F IH]; intros N; [exists []; constructor|]. destruct H as (a & A); [apply N; now left|]. destruct IH as (b & B); [intros q Q; apply N; now right|].
    exists (a ++ b). now constructor. }
  intros N. apply ALL; auto. apply Forall_forall. intros p _. clear -ALL. induction p as [n|name loop ps IH|ps IH|i d ps IH] using part_ind'; intros N.
  - eexists. constructor.
  - exfalso. apply N. do 3 eexists. constructor.
  - destruct (ALL ps IH) as (t & T); [|exists t; now constructor]. intros p I (a & b & c & J). apply N. exists a, b, c. eapply Pi_time; eauto.
  - destruct (ALL ps IH) as (t & T); [|eexists; constructor; eauto]. intros p I (a & b & c & J). apply N. exists a, b, c. eapply Pi_vert; eauto.
Qed.
(* A group without subcycles is written, and running what is written makes the calls of
   the tree in order, those of a vertical loop once per level. *)
Theorem C41_written_partial : forall limit find run xs ps local_dim answers ps' rest val,
  new_group limit find run xs = Ok ps -> analyze_all local_dim ps answers = Ok (ps', rest) ->
  (forall x name loop ys, In x xs -> ~ inside (XSubcycle name loop ys) x) ->
  exists w t, write_all limit find ps' = Ok w /\ all_mean val ps' t /\ runs val w t /\ forall t', runs val w t' -> t' = t.
Proof.
  intros limit find run xs ps ld o ps' rest val E A N.
  assert (NS : forall p, In p ps -> ~ has_sub p).
  { assert (NX : forall x p, (forall name loop ys, ~ inside (XSubcycle name loop ys) x) -> new_suite_object limit find x = Ok p -> ~ has_sub p).
    { induction x as [n|name loop zs IH|zs IH|t] using xml_ind'; intros p M X (a & b & c & H).
      - injection X as <-. inversion H.
      - exfalso. apply (M name loop zs). constructor.
      - rewrite new_time in X. apply bind_ok in X as (qs & X1 & X). injection X as <-. inversion H as [| |? q I J|]; subst.
        destruct (new_parts_in _ _ _ _ _ X1 I) as (x & Ix & Ex). rewrite Forall_forall in IH. apply (IH x Ix q) in Ex; [apply Ex; exists a, b, c; exact J|].
        intros n l y Hy. apply (M n l y). eapply In_time; eauto.
      - discriminate. }
    intros p I. unfold new_group in E. apply bind_ok in E as (qs & E & X). injection X as <-.
    assert (Q : forall q, In q qs -> ~ has_sub q) by (intros q Q; destruct (new_parts_in _ _ _ _ _ E Q) as (x & Ix & Ex); eapply NX; eauto).
    destruct (_ && _) in I; [|auto]. destruct I as [<-|[]]. intros (a & b & c & H). inversion H as [| |? q J K|]; subst. apply (Q q J). exists a, b, c. exact K. }
  assert (NS' : forall p, In p ps' -> ~ has_sub p).
  { intros q I. destruct (analyze_all_in _ _ _ _ _ _ A I) as (p & o1 & o2 & Ip & Ap). specialize (NS p Ip). clear -NS Ap. revert o1 q o2 Ap.
    assert (AA : forall ps, Forall (fun p => ~ has_sub p -> forall o q o', analyze ld p o = Ok (q, o') -> ~ has_sub q) ps -> (forall p, In p ps -> ~ has_sub p) ->
      forall o qs o', analyze_all ld ps o = Ok (qs, o') -> forall q, In q qs -> ~ has_sub q).
    { intros ps F N o qs o' E q I. destruct (analyze_all_in _ _ _ _ _ _ E I) as (p' & a & b & Ip & Ap). rewrite Forall_forall in F. eapply F; eauto. }
    induction p as [n|name loop ps IH|ps IH|i d ps IH] using part_ind'; intros o1 q o2 E (a & b & c & H).
    - cbn [analyze] in E. unfold analyze_scheme in E. destruct (ask o1) as [[index|] o3]; [|injection E as <- _; inversion H].
      destruct (dim_from_index index); [|discriminate]. destruct (ld s); [|discriminate]. destruct (ask o3) as [[x|] o4]; [discriminate|]. injection E as <- _.
      inversion H as [| | |? ? ? q I J]; subst. destruct I as [<-|[]]. inversion J.
    - apply NS. exists name, loop, ps. constructor.
    - rewrite analyze_time in E. apply bind_ok in E as ([qs o3] & E1 & E). injection E as <- _. inversion H as [| |? q I J|]; subst.
      refine (AA ps _ _ _ _ _ E1 q I _); [|intros p Ip (a' & b' & c' & R); apply NS; exists a', b', c'; eapply Pi_time; eauto|exists a, b, c; exact J].
      apply Forall_forall. intros p Ip Np. rewrite Forall_forall in IH. apply IH; auto.
    - rewrite analyze_vert in E. apply bind_ok in E as ([qs o3] & E1 & E). injection E as <- _. inversion H as [| | |? ? ? q I J]; subst.
      refine (AA ps _ _ _ _ _ E1 q I _); [|intros p Ip (a' & b' & c' & R); apply NS; exists a', b', c'; eapply Pi_vert; eauto|exists a, b, c; exact J].
      apply Forall_forall. intros p Ip Np. rewrite Forall_forall in IH. apply IH; auto. }
  destruct (mean_total val ps' NS') as (t & T). destruct (proj2 (means_runs limit find val) ps' t T) as (w & W & R).
  exists w, t. split; auto. split; auto. split; auto. intros t' R'. symmetry. eapply runs_unique; eauto.
Qed.
Print Assumptions C41_written_partial.
Example C41_written_ok : exists ps ps' rest w, new_group 900 (fun _ => None) true [XScheme (L "a"); XScheme (L "b")] = Ok ps /\
  analyze_all (fun d => Some (L "nz")) ps answers0 = Ok (ps', rest) /\
  write_all 900 (fun _ => None) ps' = Ok w /\ w = [Do (L "vertical_layer_index") (L "nz"); Call (L "a"); EndDo; Call (L "b")].
Proof. do 4 eexists. split; [vm_compute; reflexivity|]. split; [vm_compute; reflexivity|]. split; vm_compute; reflexivity. Qed.

(* Finding: asking for the part just past the last one raises IndexError, even when the
   caller asked for None instead of an error. *)
Theorem C41_finding_part : forall ps error, ps <> [] -> part_at ps (Z.of_nat (length ps)) error = Raise "IndexError".
Proof.
  intros ps error N. unfold part_at. assert (Z.abs (Z.of_nat (length ps)) <=? Z.of_nat (length ps) = true)%Z as -> by (apply Z.leb_le; lia). rewrite orb_true_r.
  unfold py_index. assert (Z.of_nat (length ps) <? 0 = false)%Z as -> by (apply Z.ltb_ge; lia). assert (Z.of_nat (length ps) <? 0 = false)%Z as -> by (apply Z.ltb_ge; lia).
  rewrite Nat2Z.id. assert (nth_error ps (length ps) = None) as -> by (apply nth_error_None; lia). reflexivity.
Qed.
Print Assumptions C41_finding_part.
Example C41_finding_part_ok : part_at [PScheme (L "a")] 1 false = Raise "IndexError" /\ part_at [PScheme (L "a")] 2 false = Ok None. Proof. split; reflexivity. Qed.

(* ---- C75 ---- *)
Lemma entry_in phase l t : entry phase l = Some t -> In (phase, t) l.
Proof. induction l as [|[p u] l IH]; cbn; [discriminate|]. destruct (str_eqb p phase) eqn:Q; [apply str_eqb_eq in Q; intros [= <-]; left; congruence|auto]. Qed.
Lemma entry_some phase l t : In (phase, t) l -> exists u, entry phase l = Some u.
Proof. induction l as [|[p u] l IH]; cbn; [intros []|]. destruct (str_eqb p phase) eqn:Q; [eauto|]. intros [[= -> _]|I]; [now rewrite str_eqb_refl in Q|auto]. Qed.
Lemma has_item_in names t : has_item names t = true <-> In t names.
Proof. unfold has_item. rewrite existsb_exists. split; [intros (x & I & E); apply str_eqb_eq in E; now subst|]. intros I. exists t. split; auto. apply str_eqb_refl. Qed.
Lemma phase_fold phase used lib : forall acc, exists new,
  fold_left (add_scheme phase used) lib acc = acc ++ new /\ subseq new (map fst lib) /\
  (forall m, In m new -> In m used /\ exists es t, In (m, es) lib /\ In (phase, t) es) /\
  ((forall m es t, In (m, es) lib -> In (phase, t) es -> ~ In t acc /\ ~ In t (map fst lib)) ->
     forall m es t, In m used -> In (m, es) lib -> In (phase, t) es -> In m new).
Proof.
  induction lib as [|[m es] lib IH]; intros acc; cbn [fold_left].
  - exists []. rewrite app_nil_r. split; auto. split; [constructor|]. split; [intros ? []|]. intros _ m es t _ [].
  - assert (SKIP : forall acc', acc' = acc -> (forall t, In m used -> In (phase, t) es -> exists u, In (phase, u) es /\ In u acc) -> exists new,
       fold_left (add_scheme phase used) lib acc' = acc ++ new /\ subseq new (map fst ((m, es) :: lib)) /\
       (forall m0, In m0 new -> In m0 used /\ (exists es0 t, In (m0, es0) ((m, es) :: lib) /\ In (phase, t) es0)) /\
       ((forall m0 es0 t, In (m0, es0) ((m, es) :: lib) -> In (phase, t) es0 -> ~ In t acc /\ ~ In t (map fst ((m, es) :: lib))) ->
          forall m0 es0 t, In m0 used -> In (m0, es0) ((m, es) :: lib) -> In (phase, t) es0 -> In m0 new)).
    { intros acc' -> H. destruct (IH acc) as (new & E & S & P & Q). exists new. split; auto. split; [now apply S_drop|]. split.
      - intros x X. destruct (P x X) as (A & es0 & t & B & C). split; auto. exists es0, t. split; [now right|auto].
      - intros N x es0 t U [[= <- <-]|I] T.
        + destruct (H t U T) as (u & A & B). exfalso. destruct (N m es u (or_introl eq_refl) A). contradiction.
        + eapply Q; eauto. intros y ey ty Y1 Y2. destruct (N y ey ty (or_intror Y1) Y2) as [A B]. split; auto. intros C. apply B. now right. }
    unfold add_scheme at 2. cbn [fst snd]. destruct (mem m used) eqn:U.
    + apply mem_in in U. destruct (entry phase es) as [title|] eqn:EN.
      * pose proof (entry_in _ _ _ EN) as ET. destruct (has_item acc title) eqn:H.
        -- apply has_item_in in H. apply SKIP; auto. intros t _ _. eauto.
        -- destruct (IH (acc ++ [m])) as (new & E & S & P & Q). exists (m :: new). rewrite E, <- app_assoc. split; auto. split; [now apply S_keep|]. split.
           ++ intros x [<-|X]; [split; auto; exists es, title; split; [now left|auto]|]. destruct (P x X) as (A & es0 & t & B & C). split; auto. exists es0, t. split; [now right|auto].
           ++ intros N x es0 t Ux [[= <- <-]|I] T; [now left|]. right. eapply Q; eauto. intros y ey ty Y1 Y2. destruct (N y ey ty (or_intror Y1) Y2) as [A B]. split.
              ** intros C. apply in_app_iff in C as [C|[<-|[]]]; [auto|]. apply B. now left.
              ** intros C. apply B. now right.
      * apply SKIP; auto. intros t _ T. destruct (entry_some _ _ _ T). congruence.
    + apply SKIP; auto. intros t Um _. apply mem_in in Um. congruence.
Qed.
(* Every scheme of the suite that has a routine for a phase is called once in that phase,
   in the order of the scheme library, and no other scheme is -- provided no routine has
   the name of a scheme. *)
Theorem C75_phase_schemes : forall phase used lib, NoDup (map fst lib) ->
  subseq (phase_group phase used lib) (map fst lib) /\ NoDup (phase_group phase used lib) /\
  (forall m, In m (phase_group phase used lib) -> In m used /\ exists es t, In (m, es) lib /\ In (phase, t) es) /\
  ((forall m es t, In (m, es) lib -> In (phase, t) es -> ~ In t (map fst lib)) ->
   forall m, In m (phase_group phase used lib) <-> In m used /\ exists es t, In (m, es) lib /\ In (phase, t) es).
Proof.
  intros phase used lib ND. destruct (phase_fold phase used lib []) as (new & E & S & P & Q). unfold phase_group. cbn [app] in E. rewrite E.
  split; auto. split.
  { clear -S ND. induction S as [|x a b S IH|x a b S IH]; [constructor| |]; inversion ND; subst; auto. constructor; auto. intros I. apply H1. clear -S I. induction S; cbn in *; tauto. }
  split; auto. intros N m. split; [apply P|]. intros (U & es & t & I & T). eapply Q; eauto.
Qed.
Print Assumptions C75_phase_schemes.
Definition lib0 : library := [(L "rad", [(L "run", L "rad_run"); (L "initialize", L "rad_init")]); (L "pbl", [(L "run", L "pbl_run")]); (L "mp", [(L "initialize", L "mp_init")]); (L "other", [(L "initialize", L "other_init")])].
Example C75_phase_ok : phase_group (L "initialize") [L "mp"; L "pbl"; L "rad"; L "rad"] lib0 = [L "rad"; L "mp"] /\
  (forall m es t, In (m, es) lib0 -> In (L "initialize", t) es -> ~ In t (map fst lib0)).
Proof.
  split; [vm_compute; reflexivity|]. intros m es t I T J. vm_compute in J. destruct I as [[= <- <-]|[[= <- <-]|[[= <- <-]|[[= <- <-]|[]]]]]; vm_compute in T;
  repeat (destruct T as [T|T]; [first [discriminate T|apply (f_equal snd) in T; cbn [snd] in T; subst t; repeat (destruct J as [J|J]; [discriminate J|]); destruct J]|]); destruct T.
Qed.
(* Finding: a routine that has the name of a scheme already in the phase group is left
   out silently. *)
Theorem C75_finding_shadowed : forall phase used a m es t b, NoDup (map fst (a ++ (m, es) :: b)) -> In m used -> entry phase es = Some t ->
  In t (phase_group phase used a) -> ~ In m (phase_group phase used (a ++ (m, es) :: b)).
Proof.
  intros phase used a m es t b ND U E I. unfold phase_group in *. rewrite fold_left_app. cbn [fold_left]. unfold add_scheme at 2. cbn [fst snd].
  rewrite (proj2 (mem_in m used) U), E, (proj2 (has_item_in _ t) I).
  destruct (phase_fold phase used b (fold_left (add_scheme phase used) a [])) as (new & -> & S & _). intros J.
  rewrite map_app in ND. cbn in ND. apply NoDup_remove_2 in ND. apply ND. apply in_app_iff. apply in_app_iff in J as [J|J].
  - left. destruct (phase_fold phase used a []) as (new' & E' & S' & _). cbn in E'. rewrite E' in J. clear -S' J. induction S'; cbn in *; tauto.
  - right. clear -S J. induction S; cbn in *; tauto.
Qed.
Print Assumptions C75_finding_shadowed.
Example C75_finding_ok : phase_group (L "initialize") [L "rad"; L "rad_init"]
  [(L "rad_init", [(L "initialize", L "rad_init_init")]); (L "rad", [(L "initialize", L "rad_init")])] = [L "rad_init"].
Proof. vm_compute. reflexivity. Qed.
(* Finding: no element but a group is accepted in a suite, so suite-wide init or finalize
   schemes cannot be given. *)
Theorem C75_finding_only_groups : forall tag, parse_suite_tag tag = Ok true <-> lower tag = L "group".
Proof. intros tag. unfold parse_suite_tag. destruct (str_eqb (lower tag) (L "group")) eqn:Q; [apply str_eqb_eq in Q; tauto|]. apply str_eqb_neq in Q. split; [discriminate|contradiction]. Qed.
Print Assumptions C75_finding_only_groups.
Example C75_only_groups_ok : exists m, parse_suite_tag (L "init") = Raise m. Proof. eexists. reflexivity. Qed.
