(* PsProofs.v: scanning the Fortran file of a scheme. *)
From Coq Require Import List Ascii String ZArith Bool Lia.
From Verif Require Import PyStr Base ReqModel ReqProofs CompatModel CommonModel ParModel ParProofs ActModel ArModel ArProofs NmModel NmSpec NmProofs PsModel PsSpec.
Import ListNotations.
Open Scope nat_scope. Open Scope list_scope.

(* ---- words ---- *)
Lemma words_blank b : forall s, (forall c, In c b -> is_space c = true) -> words_of [] (b ++ s) = words_of [] s.
Proof.
  induction b as [|c b IH]; intros s H; [reflexivity|]. cbn [app words_of]. rewrite (H c (or_introl eq_refl)). apply IH. intros d I. apply H. now right.
Qed.
Lemma words_word w : forall cur s, (forall c, In c w -> is_space c = false) -> words_of cur (w ++ s) = words_of (rev w ++ cur) s.
Proof.
  induction w as [|c w IH]; intros cur s H; [reflexivity|]. cbn [app words_of]. rewrite (H c (or_introl eq_refl)). rewrite IH; [|intros d I; apply H; now right].
  cbn [rev]. now rewrite <- app_assoc.
Qed.
Lemma words_fun s ws : words_in s ws -> words s = ws.
Proof.
  unfold words. induction 1 as [s A|b w s l A N B E W IH].
  - rewrite <- (app_nil_r s), words_blank; auto.
  - rewrite words_blank, words_word; auto. rewrite app_nil_r. destruct (rev w) as [|x r] eqn:R.
    { apply (f_equal (@rev ascii)) in R. rewrite rev_involutive in R. contradiction. }
    assert (F : rev (x :: r) = w) by (rewrite <- R; apply rev_involutive).
    destruct E as [->|(c & t & -> & C)].
    + cbn [words_of] in *. now rewrite F, <- IH.
    + cbn [words_of] in *. rewrite C in *. now rewrite F, <- IH.
Qed.
Lemma words_rel s : words_in s (words s).
Proof. apply (words_of_in s []). intros c []. Qed.
Lemma take_not c (s : str) : ~ In c s -> takewhile (fun x => negb (Ascii.eqb x c)) s = s.
Proof.
  induction s as [|x s IH]; [reflexivity|]. intros H. cbn [takewhile]. destruct (Ascii.eqb_spec x c) as [->|N]; [elim H; now left|]. cbn [negb]. rewrite IH; [reflexivity|]. intros I. apply H. now right.
Qed.
Lemma take_at c (a b : str) : ~ In c a -> takewhile (fun x => negb (Ascii.eqb x c)) (a ++ c :: b) = a.
Proof.
  induction a as [|x a IH]; intros H; cbn [app takewhile]; [now rewrite Ascii.eqb_refl|].
  destruct (Ascii.eqb_spec x c) as [->|N]; [elim H; now left|]. cbn [negb]. rewrite IH; [reflexivity|]. intros I. apply H. now right.
Qed.
Lemma take_split c (s : str) : exists r, s = takewhile (fun x => negb (Ascii.eqb x c)) s ++ r /\ ~ In c (takewhile (fun x => negb (Ascii.eqb x c)) s) /\ (r = [] \/ exists q, r = c :: q).
Proof.
  induction s as [|x s (r & E & N & R)]; [exists []; repeat split; auto|]. cbn [takewhile]. destruct (Ascii.eqb_spec x c) as [->|D]; cbn [negb].
  - exists (c :: s). repeat split; eauto.
  - exists r. cbn [app]. rewrite <- E. repeat split; auto. intros [H|H]; [congruence|contradiction].
Qed.
Lemma uncommented_fun l t : uncommented l t -> (if has_char "!" l && negb (startswith (L "!") l) then takewhile (fun c => negb (Ascii.eqb c "!")) l else l)%bool = t.
Proof.
  intros H. destruct H as [t|l N|a b NE N].
  - cbn [startswith L list_ascii_of_string]. change (startswith (L "!") ("!"%char :: t)) with true. now rewrite andb_false_r.
  - destruct (has_char "!" l) eqn:E; [apply has_char_in in E; contradiction|reflexivity].
  - assert (E : has_char "!" (a ++ "!"%char :: b) = true) by (apply has_char_in, in_or_app; right; now left). rewrite E.
    destruct a as [|x a]; [congruence|]. assert (F : startswith (L "!") ((x :: a) ++ "!"%char :: b) = false).
    { destruct (startswith (L "!") ((x :: a) ++ "!"%char :: b)) eqn:F; [|reflexivity]. apply starts_p in F as (r & F). injection F as F _. elim N. left. exact F. }
    rewrite F. cbn [negb andb]. now apply take_at.
Qed.
Lemma uncommented_some l : uncommented l (if has_char "!" l && negb (startswith (L "!") l) then takewhile (fun c => negb (Ascii.eqb c "!")) l else l)%bool.
Proof.
  destruct (has_char "!" l) eqn:E; cbn [andb].
  - destruct (startswith (L "!") l) eqn:F; cbn [negb].
    + apply starts_p in F as (r & ->). constructor.
    + destruct (take_split "!" l) as (r & E2 & N & R). apply has_char_in in E. destruct R as [->|(q & ->)].
      * rewrite app_nil_r in E2. rewrite E2 in E. contradiction.
      * rewrite E2 at 1. constructor; [|exact N]. intros X. rewrite X in E2. rewrite E2 in F. cbn [app] in F. change (startswith (L "!") ("!"%char :: q)) with true in F. discriminate.
  - constructor. intros I. apply has_char_in in I. congruence.
Qed.
Lemma says_code l ws : says l ws <-> code l = ws.
Proof.
  unfold says, code. split.
  - intros (t & U & W). apply uncommented_fun in U. apply words_fun in W. rewrite <- W. apply (f_equal words). exact U.
  - intros <-. eexists. split; [apply uncommented_some|apply words_rel].
Qed.
Lemma contains_occurs x s : contains x s = true <-> occurs x s.
Proof.
  unfold occurs. induction s as [|c s IH]; cbn [contains].
  - rewrite orb_false_r, starts_p. split; [intros (r & E); exists [], r; exact E|].
    intros (a & b & E). destruct a; [exists b; exact E|discriminate].
  - rewrite orb_true_iff, starts_p, IH. split.
    + intros [(r & E)|(a & b & ->)]; [exists [], r; exact E|exists (c :: a), b; reflexivity].
    + intros (a & b & E). destruct a as [|d a]; [left; exists b; exact E|right]. injection E as -> E. eauto.
Qed.

(* ---- phases ---- *)
Lemma ends_app (e s : str) : endswith e s = true -> exists q, s = q ++ e /\ firstn (List.length s - List.length e) s = q.
Proof.
  intros H. apply endswith_ends in H as (q & ->). exists q. split; [reflexivity|]. rewrite app_length, Nat.add_sub. rewrite firstn_app, Nat.sub_diag, firstn_all. cbn [firstn]. apply app_nil_r.
Qed.
Lemma ends_not e s : endswith e s = false -> forall q, s <> q ++ e.
Proof. intros H q ->. rewrite (proj2 (endswith_ends _ _)) in H by now exists q. discriminate. Qed.
Lemma ends_both (p e : str) : endswith e (p ++ e) = true.
Proof. apply endswith_ends. now exists p. Qed.
Lemma first_at (p e : str) : firstn (List.length (p ++ e) - List.length e) (p ++ e) = p.
Proof. rewrite app_length, Nat.add_sub. rewrite firstn_app, Nat.sub_diag, firstn_all. cbn [firstn]. apply app_nil_r. Qed.
Lemma ends_diff (p e f : str) : startswith (rev f) (rev e ++ rev p) = false -> endswith f (p ++ e) = false.
Proof. intros H. unfold endswith. now rewrite rev_app_distr. Qed.
Lemma scheme_phase n p : scheme_of n = Some p <-> phase_sub p n.
Proof.
  unfold scheme_of, ccpp_stages, phase_sub. cbn [first_stage]. split.
  - destruct (endswith (L "_" ++ L "timestep_init") n) eqn:E1.
    { apply ends_app in E1 as (q & E & F). rewrite F. injection 1 as <-. left. exists (L "timestep_init"). split; [now left|exact E]. }
    destruct (endswith (L "_" ++ L "timestep_finalize") n) eqn:E2.
    { apply ends_app in E2 as (q & E & F). rewrite F. injection 1 as <-. left. exists (L "timestep_finalize"). split; [now right; left|exact E]. }
    destruct (endswith (L "_" ++ L "init") n) eqn:E3.
    { apply ends_app in E3 as (q & E & F). rewrite F. injection 1 as <-. right. exists (L "init"). split; [now left|]. split; [exact E|].
      intros r ->. apply (ends_not _ _ E1 r). rewrite E, <- app_assoc. reflexivity. }
    destruct (endswith (L "_" ++ L "run") n) eqn:E4.
    { apply ends_app in E4 as (q & E & F). rewrite F. injection 1 as <-. left. exists (L "run"). split; [now right; right; left|exact E]. }
    destruct (endswith (L "_" ++ L "finalize") n) eqn:E5; [|discriminate].
    apply ends_app in E5 as (q & E & F). rewrite F. injection 1 as <-. right. exists (L "finalize"). split; [now right; left|]. split; [exact E|].
    intros r ->. apply (ends_not _ _ E2 r). rewrite E, <- app_assoc. reflexivity.
  - intros [(st & [<-|[<-|[<-|[]]]] & ->)|(st & [<-|[<-|[]]] & -> & N)].
    + now rewrite ends_both, first_at.
    + rewrite (ends_diff p _ (L "_" ++ L "timestep_init")) by reflexivity. now rewrite ends_both, first_at.
    + rewrite (ends_diff p _ (L "_" ++ L "timestep_init")) by reflexivity; rewrite (ends_diff p _ (L "_" ++ L "timestep_finalize")) by reflexivity; rewrite (ends_diff p _ (L "_" ++ L "init")) by reflexivity.
      now rewrite ends_both, first_at.
    + assert (X : endswith (L "_" ++ L "timestep_init") (p ++ L "_" ++ L "init") = false).
      { destruct (endswith (L "_" ++ L "timestep_init") (p ++ L "_" ++ L "init")) eqn:E; [|reflexivity]. apply endswith_ends in E as (q & E). elim (N q).
        apply (app_inv_tail (L "_" ++ L "init")). rewrite <- app_assoc. exact E. }
      rewrite X; rewrite (ends_diff p _ (L "_" ++ L "timestep_finalize")) by reflexivity. now rewrite ends_both, first_at.
    + assert (X : endswith (L "_" ++ L "timestep_finalize") (p ++ L "_" ++ L "finalize") = false).
      { destruct (endswith (L "_" ++ L "timestep_finalize") (p ++ L "_" ++ L "finalize")) eqn:E; [|reflexivity]. apply endswith_ends in E as (q & E). elim (N q).
        apply (app_inv_tail (L "_" ++ L "finalize")). rewrite <- app_assoc. exact E. }
      rewrite (ends_diff p _ (L "_" ++ L "timestep_init")) by reflexivity; rewrite X; rewrite (ends_diff p _ (L "_" ++ L "init")) by reflexivity; rewrite (ends_diff p _ (L "_" ++ L "run")) by reflexivity.
      now rewrite ends_both, first_at.
Qed.

(* ---- subroutines of a module ---- *)
Record inv (all : list str) (m : str) (k0 k : nat) (st : scan) : Prop := {
  i_done : forall s, In s (done st) -> k0 <= s_start s < s_end s /\ s_end s < k /\ line_is all (s_start s) (fun l => opens_sub l (s_name s)) /\ phase_sub m (s_name s) /\ line_is all (s_end s) (fun l => closes_sub l (s_name s));
  i_open : forall n q, opened st = Some (n, q) -> k0 <= q < k /\ line_is all q (fun l => opens_sub l n) /\ phase_sub m n /\ last st = Some n /\ ~ In n (map s_name (done st));
  i_all : forall p l n o, k0 <= p < k -> nth_error all p = Some l -> opens_sub l n -> phase_sub o n ->
    (exists s, In s (done st) /\ s_start s <= p < s_end s /\ (s_start s < p \/ (s_name s = n /\ o = m))) \/
    (exists n' q, opened st = Some (n', q) /\ q <= p /\ (q < p \/ (n' = n /\ o = m)));
  i_once : NoDup (map s_name (done st)) }.
Lemma opens_code l n : opens_sub l n <-> exists w0 w1 more, code l = w0 :: w1 :: more /\ str_eqb (lower w0) (L "subroutine") = true /\ takewhile (fun c => negb (Ascii.eqb c "(")) w1 = n.
Proof.
  split.
  - intros (w0 & r & more & H & E & N & R). apply says_code in H. exists w0, (n ++ r), more. split; [exact H|]. split; [now apply str_eqb_eq|].
    destruct R as [->|(q & ->)]; [rewrite app_nil_r; now apply take_not|now apply take_at].
  - intros (w0 & w1 & more & H & E & <-). destruct (take_split "(" w1) as (r & W & N & R). exists w0, r, more. rewrite <- W. split; [now apply says_code|].
    split; [now apply str_eqb_eq|]. auto.
Qed.
Lemma scan_line_inv all m k0 k l st st' : nth_error all k = Some l -> k0 <= k -> scan_line m k l st = Ok st' -> inv all m k0 k st -> inv all m k0 (k + 1) st'.
Proof.
  intros A K H [ID IO IA IN]. unfold scan_line in H.
  (* a line that opens nothing and leaves the state *)
  assert (SAME : (forall n o, opens_sub l n -> phase_sub o n -> exists n' q, opened st = Some (n', q)) -> st' = st -> inv all m k0 (k + 1) st').
  { intros X ->. constructor.
    - intros s I. destruct (ID s I) as (B1 & B2 & B3 & B4 & B5). repeat split; auto; lia.
    - intros n q O. destruct (IO n q O) as (B1 & B2). split; [lia|exact B2].
    - intros p x n o P XP O F. destruct (Nat.eq_dec p k) as [->|NE].
      + rewrite A in XP. injection XP as <-. right. destruct (X n o O F) as (n' & q & E). exists n', q. destruct (IO n' q E) as (B1 & _). repeat split; auto; [lia|left; lia].
      + apply (IA p x n o); auto. lia.
    - exact IN. }
  destruct (code l) as [|w0 [|w1 more]] eqn:C.
  - apply Ok_inj in H. subst st'. apply SAME; [|reflexivity]. intros n o O _. apply opens_code in O as (? & ? & ? & E & _). congruence.
  - assert (NO : forall n o, opens_sub l n -> phase_sub o n -> exists n' q, opened st = Some (n', q)).
    { intros n o O _. apply opens_code in O as (? & ? & ? & E & _). rewrite C in E. discriminate. }
    match type of H with (if ?c then _ else _) = _ => destruct c end; [discriminate|]. apply Ok_inj in H. subst st'. now apply SAME.
  - destruct (str_eqb (lower w0) (L "subroutine")) eqn:E0.
    + destruct (opened st) as [[n q]|] eqn:OP.
      * apply Ok_inj in H. subst st'. apply SAME; [|reflexivity]. intros. exists n, q. reflexivity.
      * set (name := takewhile (fun c => negb (Ascii.eqb c "(")) w1) in *.
        assert (OPN : forall n, opens_sub l n -> n = name).
        { intros n O. apply opens_code in O as (v0 & v1 & mo & E & _ & <-). rewrite C in E. injection E as <- <- <-. reflexivity. }
        destruct (scheme_of name) as [pr|] eqn:SC.
        -- destruct (str_eqb pr m) eqn:EP; cbn [negb] in H; [|discriminate]. apply str_eqb_eq in EP. subst pr.
           destruct (mem name (map s_name (done st))) eqn:M; [discriminate|]. apply mem_not in M. apply Ok_inj in H. subst st'.
           assert (OL : opens_sub l name) by (apply opens_code; exists w0, w1, more; auto).
           constructor; cbn [done opened last].
           ++ intros s I. destruct (ID s I) as (B1 & B2 & B3 & B4 & B5). repeat split; auto; lia.
           ++ intros n q X. injection X as <- <-. split; [lia|]. split; [now exists l|]. split; [now apply scheme_phase|]. auto.
           ++ intros p x n o P XP O F. destruct (Nat.eq_dec p k) as [->|NE].
              ** rewrite A in XP. injection XP as <-. right. exists name, k. apply OPN in O. subst n. split; [reflexivity|]. split; [lia|]. right. split; [reflexivity|].
                 apply scheme_phase in F. congruence.
              ** destruct (IA p x n o) as [D|(n' & q & X & _)]; auto; [lia|discriminate].
           ++ exact IN.
        -- apply Ok_inj in H. subst st'. constructor; cbn [done opened last].
           ++ intros s I. destruct (ID s I) as (B1 & B2 & B3 & B4 & B5). repeat split; auto; lia.
           ++ discriminate.
           ++ intros p x n o P XP O F. destruct (Nat.eq_dec p k) as [->|NE].
              ** rewrite A in XP. injection XP as <-. apply OPN in O. subst n. apply scheme_phase in F. congruence.
              ** destruct (IA p x n o) as [D|(n' & q & X & _)]; auto; [lia|discriminate].
           ++ exact IN.
    + assert (NO : forall n, ~ opens_sub l n).
      { intros n O. apply opens_code in O as (v0 & v1 & mo & E & X & _). rewrite C in E. injection E as <- <- <-. congruence. }
      destruct (str_eqb (lower w1) (L "subroutine") && str_eqb (lower w0) (L "end"))%bool eqn:EE.
      * apply andb_true_iff in EE as [EE1 EE2]. apply str_eqb_eq in EE1, EE2. apply bind_inv in H as (name & NM & H).
        destruct (opened st) as [[n q]|] eqn:OP.
        -- destruct (str_eqb n name) eqn:EN.
           ++ apply str_eqb_eq in EN. subst name. apply Ok_inj in H. subst st'. destruct (IO n q eq_refl) as (B1 & B2 & B3 & B4 & B5).
              assert (CL : closes_sub l n).
              { exists w0, w1, more. split; [now apply says_code|]. split; [exact EE2|]. split; [exact EE1|]. destruct more as [|w2 more]; [now left|]. right. apply Ok_inj in NM. subst w2. eauto. }
              constructor; cbn [done opened last].
              ** intros s I. apply in_app_iff in I as [I|[<-|[]]].
                 --- destruct (ID s I) as (D1 & D2 & D3 & D4 & D5). repeat split; auto; lia.
                 --- cbn [s_start s_end s_name]. repeat split; auto; try lia. exists l. auto.
              ** discriminate.
              ** intros p x n0 o P XP O F. left. destruct (Nat.eq_dec p k) as [->|NE].
                 --- rewrite A in XP. injection XP as <-. elim (NO _ O).
                 --- destruct (IA p x n0 o) as [(s & I & D)|(n' & q' & X & Q & D)]; auto; [lia| |].
                     +++ exists s. split; [apply in_or_app; now left|exact D].
                     +++ injection X as <- <-. exists (mkSub n q k). split; [apply in_or_app; right; now left|]. cbn [s_start s_end s_name]. split; [lia|exact D].
              ** rewrite map_app. cbn [map s_name]. now apply NoDup_snoc.
           ++ apply Ok_inj in H. subst st'. apply SAME; [|reflexivity]. intros x o O _. elim (NO _ O).
        -- apply Ok_inj in H. subst st'. apply SAME; [|reflexivity]. intros x o O _. elim (NO _ O).
      * apply Ok_inj in H. subst st'. apply SAME; [|reflexivity]. intros x o O _. elim (NO _ O).
Qed.
Lemma scan_lines_inv all m k0 seg : forall k st st', (forall i x, nth_error seg i = Some x -> nth_error all (k + i) = Some x) -> k0 <= k ->
  scan_lines m k seg st = Ok st' -> inv all m k0 k st -> inv all m k0 (k + List.length seg) st'.
Proof.
  induction seg as [|l seg IH]; intros k st st' A K H I; cbn [scan_lines List.length] in *.
  - apply Ok_inj in H. subst. now rewrite Nat.add_0_r.
  - apply bind_inv in H as (st1 & S1 & H). rewrite <- plus_n_Sm, <- plus_Sn_m.
    apply (IH (Datatypes.S k) st1); auto.
    + intros i x N. rewrite plus_Sn_m, plus_n_Sm. now apply A.
    + now rewrite Nat.add_1_r in H.
    + rewrite <- Nat.add_1_r. apply (scan_line_inv all m k0 k l st); auto. rewrite <- (Nat.add_0_r k). now apply A.
Qed.

(* ---- modules ---- *)
Lemma nth_snoc {A} (l : list A) x i y : nth_error (l ++ [x]) i = Some y -> (i < List.length l /\ nth_error l i = Some y) \/ (i = List.length l /\ y = x).
Proof.
  intros H. destruct (Nat.lt_ge_cases i (List.length l)) as [D|D].
  - left. split; [exact D|]. now rewrite nth_error_app1 in H.
  - rewrite nth_error_app2 in H by exact D. destruct (i - List.length l) as [|j] eqn:E; cbn in H; [injection H as <-; right; split; [lia|reflexivity]|]. destruct j; discriminate.
Qed.
Lemma nth_old {A} (l : list A) x i y : nth_error l i = Some y -> nth_error (l ++ [x]) i = Some y.
Proof. intros H. rewrite nth_error_app1; [exact H|]. apply nth_error_Some. congruence. Qed.
Lemma nth_new {A} (l : list A) x : nth_error (l ++ [x]) (List.length l) = Some x.
Proof. rewrite nth_error_app2, Nat.sub_diag; [reflexivity|lia]. Qed.
Lemma line_old l x i P : line_is l i P -> line_is (l ++ [x]) i P.
Proof. intros (y & H & K). exists y. split; [now apply nth_old|exact K]. Qed.
Definition later_ends (pre : list str) (m : module) : Prop :=
  forall i l, m_start m < i -> match m_end m with Some e => e < i | None => True end -> nth_error pre i = Some l -> closes_module l (m_name m) ->
  exists h o, m_start m < h < i /\ line_is pre h (fun x => opens_module x o).
Record minv (pre : list str) (cur : option str) (acc : list module) : Prop := {
  n_start : forall m, In m acc -> line_is pre (m_start m) (fun l => opens_module l (m_name m));
  n_end : forall m e, In m acc -> m_end m = Some e -> m_start m < e /\ line_is pre e (fun l => closes_module l (m_name m));
  n_later : forall m, In m acc -> later_ends pre m;
  n_all : forall k l o, nth_error pre k = Some l -> opens_module l o -> exists m, In m acc /\ m_start m = k /\ m_name m = o;
  n_once : NoDup (map m_name acc);
  n_cur : match cur with Some c => exists m, In m acc /\ m_name m = c /\ forall m', In m' acc -> m' = m \/ m_start m' < m_start m | None => acc = [] end }.
Lemma opens_mod_code l m : opens_module l m <-> exists w0 more, code l = w0 :: m :: more /\ str_eqb (lower w0) (L "module") = true /\ str_eqb (lower m) (L "procedure") = false.
Proof.
  split; intros (w0 & more & H & E & F); exists w0, more.
  - apply says_code in H. split; [exact H|]. split; [now apply str_eqb_eq|now apply str_eqb_neq].
  - split; [now apply says_code|]. split; [now apply str_eqb_eq|now apply str_eqb_neq].
Qed.
Lemma closes_code l m : closes_module l m <-> exists w0 w1 more, code l = w0 :: w1 :: more /\ str_eqb (lower w0) (L "end") = true /\ str_eqb (lower w1) (L "module") = true /\ (more = [] \/ exists r, more = m :: r).
Proof.
  split; intros (w0 & w1 & more & H & E & F & G); exists w0, w1, more.
  - apply says_code in H. split; [exact H|]. split; [now apply str_eqb_eq|]. split; [now apply str_eqb_eq|exact G].
  - split; [now apply says_code|]. split; [now apply str_eqb_eq|]. split; [now apply str_eqb_eq|exact G].
Qed.
Lemma set_end_names n k l : map m_name (set_end n k l) = map m_name l.
Proof. unfold set_end. rewrite map_map. apply map_ext. intros m. now destruct (str_eqb (m_name m) n). Qed.
Lemma set_end_in n k l m : In m (set_end n k l) -> exists m0, In m0 l /\ m_name m = m_name m0 /\ m_start m = m_start m0 /\
  ((m_name m0 = n /\ m_end m = Some k) \/ (m_name m0 <> n /\ m = m0)).
Proof.
  unfold set_end. intros H. apply in_map_iff in H as (m0 & E & I). exists m0. split; [exact I|]. destruct (str_eqb (m_name m0) n) eqn:B; subst m.
  - apply str_eqb_eq in B. repeat split; auto.
  - apply str_eqb_neq in B. repeat split; auto.
Qed.
Lemma in_set_end n k l m : In m l -> exists m', In m' (set_end n k l) /\ m_name m' = m_name m /\ m_start m' = m_start m.
Proof.
  intros I. exists (if str_eqb (m_name m) n then mkMod (m_name m) (m_start m) (Some k) else m). split; [unfold set_end; now apply in_map_iff; exists m|].
  now destruct (str_eqb (m_name m) n).
Qed.
Lemma start_lt pre cur acc m : minv pre cur acc -> In m acc -> m_start m < List.length pre.
Proof. intros I H. destruct (n_start _ _ _ I m H) as (l & N & _). apply nth_error_Some. congruence. Qed.
Lemma names_inj l (m1 m2 : module) : NoDup (map m_name l) -> In m1 l -> In m2 l -> m_name m1 = m_name m2 -> m1 = m2.
Proof.
  induction l as [|m l IH]; cbn [map]; intros N I1 I2 E; [destruct I1|]. inversion N as [|? ? P Q]; subst.
  destruct I1 as [->|I1], I2 as [->|I2]; auto.
  - elim P. rewrite E. now apply in_map.
  - elim P. rewrite <- E. now apply in_map.
Qed.
Lemma minv_same pre cur acc l : (forall o, ~ opens_module l o) -> (forall o, ~ closes_module l o) -> minv pre cur acc -> minv (pre ++ [l]) cur acc.
Proof.
  intros NO NC [S1 S2 S3 S4 S5 S6]. constructor; auto.
  - intros m I. apply line_old. auto.
  - intros m e I E. destruct (S2 m e I E) as [A B]. split; [exact A|now apply line_old].
  - intros m I i x A B N C. apply nth_snoc in N as [[D N]|[-> ->]]; [|elim (NC _ C)].
    destruct (S3 m I i x A B N C) as (h & o & X & Y). exists h, o. split; [exact X|now apply line_old].
  - intros k x o N O. apply nth_snoc in N as [[D N]|[-> ->]]; [eauto|elim (NO _ O)].
Qed.
Lemma minv_open pre cur acc l n : opens_module l n -> ~ In n (map m_name acc) -> minv pre cur acc -> minv (pre ++ [l]) (Some n) (acc ++ [mkMod n (List.length pre) None]).
Proof.
  intros O F I. pose proof (fun m => start_lt _ _ _ m I) as LT. destruct I as [S1 S2 S3 S4 S5 S6].
  assert (NC : forall o, ~ closes_module l o).
  { intros o C. apply closes_code in C as (a & b & c & C & E & _). apply opens_mod_code in O as (a' & b' & O & E' & _). rewrite C in O. injection O as <- <- <-.
    apply str_eqb_eq in E, E'. rewrite E in E'. discriminate. }
  constructor.
  - intros m I. apply in_app_iff in I as [I|[<-|[]]]; [apply line_old; auto|]. exists l. split; [apply nth_new|exact O].
  - intros m e I E. apply in_app_iff in I as [I|[<-|[]]]; [|discriminate]. destruct (S2 m e I E) as [A B]. split; [exact A|now apply line_old].
  - intros m I i x A B N C. apply nth_snoc in N as [[D N]|[-> ->]]; [|elim (NC _ C)]. apply in_app_iff in I as [I|[<-|[]]]; [|cbn [m_start] in A; lia].
    destruct (S3 m I i x A B N C) as (h & o & X & Y). exists h, o. split; [exact X|now apply line_old].
  - intros k x o N O'. apply nth_snoc in N as [[D N]|[-> ->]].
    + destruct (S4 k x o N O') as (m & I & E). exists m. split; [apply in_or_app; now left|exact E].
    + exists (mkMod n (List.length pre) None). split; [apply in_or_app; right; now left|]. split; [reflexivity|].
      apply opens_mod_code in O as (a & b & O & _), O' as (a' & b' & O' & _). rewrite O in O'. now injection O' as _ <- _.
  - rewrite map_app. cbn [map m_name]. now apply NoDup_snoc.
  - exists (mkMod n (List.length pre) None). split; [apply in_or_app; right; now left|]. split; [reflexivity|].
    intros m I. apply in_app_iff in I as [I|[<-|[]]]; [right; cbn [m_start]; auto|now left].
Qed.
Lemma minv_close pre c acc l : closes_module l c -> minv pre (Some c) acc -> minv (pre ++ [l]) (Some c) (set_end c (List.length pre) acc).
Proof.
  intros C I. pose proof (fun m => start_lt _ _ _ m I) as LT. destruct I as [S1 S2 S3 S4 S5 (m0 & I0 & N0 & L0)].
  assert (NO : forall o, ~ opens_module l o).
  { intros o O. apply closes_code in C as (a & b & d & C & E & _). apply opens_mod_code in O as (a' & b' & O & E' & _). rewrite C in O. injection O as <- <- <-.
    apply str_eqb_eq in E, E'. rewrite E in E'. discriminate. }
  constructor.
  - intros m I. apply set_end_in in I as (m1 & I & EN & ES & _). rewrite EN, ES. apply line_old. auto.
  - intros m e I E. apply set_end_in in I as (m1 & I & EN & ES & [[X Y]|[X ->]]).
    + rewrite E in Y. injection Y as ->. rewrite ES, EN, X. split; [auto|]. exists l. split; [apply nth_new|exact C].
    + destruct (S2 m1 e I E) as [A B]. split; [exact A|now apply line_old].
  - intros m I i x A B N D. apply set_end_in in I as (m1 & I & EN & ES & [[X Y]|[X ->]]).
    + rewrite Y in B. apply nth_snoc in N as [[Q N]|[-> ->]]; lia.
    + apply nth_snoc in N as [[Q N]|[-> ->]].
      * destruct (S3 m1 I i x A B N D) as (h & o & U & V). exists h, o. split; [exact U|now apply line_old].
      * exists (m_start m0), (m_name m0). split; [|apply line_old; auto]. split; [|auto]. destruct (L0 m1 I) as [->|LL]; [congruence|exact LL].
  - intros k x o N O. apply nth_snoc in N as [[Q N]|[-> ->]]; [|elim (NO _ O)]. destruct (S4 k x o N O) as (m & I & E1 & E2).
    destruct (in_set_end c (List.length pre) acc m I) as (m' & I' & F1 & F2). exists m'. split; [exact I'|]. split; congruence.
  - now rewrite set_end_names.
  - destruct (in_set_end c (List.length pre) acc m0 I0) as (m' & I' & F1 & F2). exists m'. split; [exact I'|]. split; [congruence|].
    intros m'' I''. pose proof I'' as J. apply set_end_in in I'' as (m1 & I1 & EN & ES & _). destruct (L0 m1 I1) as [->|LL]; [|right; congruence].
    left. apply (names_inj (set_end c (List.length pre) acc)); auto; [now rewrite set_end_names|congruence].
Qed.
Lemma find_modules_inv rest : forall pre cur acc mods, find_modules rest (List.length pre) cur acc = Ok mods -> minv pre cur acc -> exists cur', minv (pre ++ rest) cur' mods.
Proof.
  induction rest as [|l rest IH]; intros pre cur acc mods H I; cbn [find_modules] in H.
  - apply Ok_inj in H. subst mods. exists cur. now rewrite app_nil_r.
  - assert (E : pre ++ l :: rest = (pre ++ [l]) ++ rest) by now rewrite <- app_assoc. rewrite E.
    assert (LE : List.length pre + 1 = List.length (pre ++ [l])) by (rewrite app_length; reflexivity). rewrite LE in H.
    assert (SHORT : forall ws, code l = ws -> (forall w0 w1 m, ws <> w0 :: w1 :: m) -> find_modules rest (List.length (pre ++ [l])) cur acc = Ok mods -> exists cur', minv ((pre ++ [l]) ++ rest) cur' mods).
    { intros ws C N F. apply (IH _ _ _ _ F). apply minv_same; [| |exact I].
      - intros o O. apply opens_mod_code in O as (a & b & O & _). elim (N a o b). congruence.
      - intros o O. apply closes_code in O as (a & b & d & O & _). elim (N a b d). congruence. }
    destruct (code l) as [|w0 [|w1 more]] eqn:C; [apply (SHORT []); auto; discriminate|apply (SHORT [w0]); auto; discriminate|].
    clear SHORT. destruct (str_eqb (lower w0) (L "module") && negb (str_eqb (lower w1) (L "procedure")))%bool eqn:E1.
    + apply andb_true_iff in E1 as [E1 E2]. apply negb_true_iff in E2. destruct (mem w1 (map m_name acc)) eqn:M; [discriminate|]. apply mem_not in M.
      apply (IH _ _ _ _ H). apply (minv_open _ cur); auto. apply opens_mod_code. exists w0, more. auto.
    + assert (NO : forall o, ~ opens_module l o).
      { intros o O. apply opens_mod_code in O as (a & b & O & X & Y). rewrite C in O. injection O as <- <- <-. rewrite X, Y in E1. discriminate. }
      destruct (str_eqb (lower w0) (L "end") && str_eqb (lower w1) (L "module"))%bool eqn:E2.
      * apply andb_true_iff in E2 as [E2 E3]. destruct cur as [c|]; [|discriminate].
        assert (K : closes_module l c /\ find_modules rest (List.length (pre ++ [l])) (Some c) (set_end c (List.length pre) acc) = Ok mods).
        { destruct more as [|w2 more].
          - split; [|exact H]. apply closes_code. exists w0, w1, []. auto.
          - destruct (str_eqb c w2) eqn:E4; [|discriminate]. apply str_eqb_eq in E4. subst w2. split; [|exact H]. apply closes_code. exists w0, w1, (c :: more). repeat split; auto. right. eauto. }
        destruct K as [K1 K2]. apply (IH _ _ _ _ K2). now apply minv_close.
      * apply (IH _ _ _ _ H). apply minv_same; auto. intros o O. apply closes_code in O as (a & b & d & O & X & Y & _). rewrite C in O. injection O as <- <- <-. rewrite X, Y in E2. discriminate.
Qed.
Lemma minv_nil : minv [] None [].
Proof.
  constructor.
  - intros m [].
  - intros m e [].
  - intros m [].
  - intros k l o N. destruct k; discriminate.
  - constructor.
  - reflexivity.
Qed.
Lemma segment_nth {A} (l : list A) s n i x : nth_error (firstn n (skipn s l)) i = Some x -> nth_error l (s + i) = Some x.
Proof.
  intros H. assert (K : i < n). { apply Nat.nle_gt. intros C. assert (nth_error (firstn n (skipn s l)) i = None); [|congruence]. apply nth_error_None. rewrite firstn_length. lia. }
  revert s l i K H. induction n as [|n IHn]; intros s l i K H; [lia|].
  revert l H. induction s as [|s IHs]; intros l H; cbn [skipn plus] in *.
  - destruct l as [|a l]; [destruct i; discriminate|]. destruct i; cbn [firstn nth_error] in *; [exact H|]. apply (IHn 0 l i); [lia|exact H].
  - destruct l as [|a l]; [destruct i; discriminate|]. cbn [nth_error]. now apply IHs.
Qed.
Lemma inv_nil all m k l : inv all m k k (mkScan [] None l).
Proof.
  constructor; cbn [done opened].
  - intros s [].
  - discriminate.
  - intros p x n o P. lia.
  - constructor.
Qed.
Lemma subroutines_inv all m lst subs l' : (forall e, m_end m = Some e -> m_start m < e < List.length all) -> subroutines all m lst = Ok (subs, l') ->
  exists e last, m_end m = Some e /\ inv all (m_name m) (m_start m) e (mkScan subs None last).
Proof.
  unfold subroutines. intros B H. destruct (m_end m) as [e|] eqn:E; [|discriminate]. specialize (B e eq_refl).
  apply bind_inv in H as (st & S1 & H). destruct (opened st) eqn:O; [discriminate|]. apply Ok_inj in H. apply pair_equal_spec in H as [<- _].
  exists e, (last st). split; [reflexivity|]. apply (scan_lines_inv all (m_name m) (m_start m)) in S1; [|intros i x; apply segment_nth|lia|apply inv_nil].
  rewrite firstn_length, skipn_length in S1. replace (m_start m + Nat.min (e - m_start m) (List.length all - m_start m)) with e in S1 by lia.
  destruct st as [d o l]. cbn [opened done last] in *. subst o. exact S1.
Qed.
Definition parsed (headers : list header) (lines : list str) (m : module) (t : list (str * list str)) : Prop :=
  exists lst subs l', subroutines lines m lst = Ok (subs, l') /\ tables headers lines (m_name m) subs = Ok t.
Lemma parse_modules_inv headers lines mods : forall lst args, parse_modules headers lines mods lst = Ok args ->
  (forall m, In m mods -> exists t, parsed headers lines m t /\ (t = [] \/ In (m_name m, t) args)) /\
  (forall n t, In (n, t) args -> exists m, In m mods /\ m_name m = n /\ parsed headers lines m t).
Proof.
  induction mods as [|m mods IH]; intros lst args H; cbn [parse_modules] in H.
  - apply Ok_inj in H. subst args. split; [intros m []|intros n t []].
  - apply bind_inv in H as ([subs l'] & P & H). apply bind_inv in H as (t & T & H). apply bind_inv in H as (r & R & H). apply Ok_inj in H. cbn [fst snd] in *.
    apply IH in R as [R1 R2]. assert (PM : parsed headers lines m t) by (exists lst, subs, l'; auto). split.
    + intros m' [<-|I].
      * exists t. split; [exact PM|]. destruct t; [now left|right]. subst args. now left.
      * destruct (R1 m' I) as (t' & X & [Y|Y]); exists t'; split; auto. right. destruct t; subst args; [exact Y|now right].
    + intros n t' I. destruct t as [|a t]; subst args.
      * destruct (R2 n t' I) as (m' & X & Y). exists m'. split; [now right|exact Y].
      * destruct I as [I|I].
        -- apply pair_equal_spec in I as [<- <-]. exists m. split; [now left|]. auto.
        -- destruct (R2 n t' I) as (m' & X & Y). exists m'. split; [now right|exact Y].
Qed.
Lemma parse_modules_names headers lines mods : forall lst args, parse_modules headers lines mods lst = Ok args -> NoDup (map m_name mods) -> NoDup (map fst args) /\ incl (map fst args) (map m_name mods).
Proof.
  induction mods as [|m mods IH]; intros lst args H N; cbn [parse_modules map] in *.
  - apply Ok_inj in H. subst args. split; [constructor|intros x []].
  - apply bind_inv in H as ([subs l'] & P & H). apply bind_inv in H as (t & T & H). apply bind_inv in H as (r & R & H). apply Ok_inj in H.
    inversion N as [|? ? N1 N2]; subst. destruct (IH _ _ R N2) as [A B]. destruct t.
    + split; [exact A|]. intros x I. right. now apply B.
    + cbn [map fst]. split; [constructor; auto|]. intros x [<-|I]; [now left|right; now apply B].
Qed.
Lemma tables_inv headers lines m subs : forall t, tables headers lines m subs = Ok t ->
  Forall2 (fun s e => fst e = s_name s /\ table_args (read_new_metadata headers m (s_name s) (Some m)) lines (s_name s) (s_start s) = Ok (snd e)) subs t.
Proof.
  induction subs as [|s subs IH]; intros t H; cbn [tables] in H.
  - apply Ok_inj in H. subst t. constructor.
  - apply bind_inv in H as (a & A & H). apply bind_inv in H as (r & R & H). apply Ok_inj in H. subst t. constructor; auto.
Qed.
Lemma tables_names headers lines m subs t : tables headers lines m subs = Ok t -> map fst t = map s_name subs.
Proof. intros H. apply tables_inv in H. induction H as [|s e l r [E _] _ IH]; cbn [map]; [reflexivity|]. now rewrite E, IH. Qed.

(* ---- tables ---- *)
Lemma header_iff n l : is_header n l = true <-> header_line n l.
Proof.
  unfold is_header, header_line. split.
  - intros H. destruct (words l) as [|w0 [|w1 [|w2 more]]] eqn:W; try discriminate. apply andb_true_iff in H as [H H3]. apply andb_true_iff in H as [H1 H2].
    exists w0, w1, w2, more. rewrite <- W. split; [apply words_rel|]. split; [apply orb_true_iff in H1 as [H1|H1]; apply str_eqb_eq in H1; auto|].
    split; now apply contains_occurs.
  - intros (w0 & w1 & w2 & more & W & A & B & C). apply words_fun in W. rewrite W. apply contains_occurs in B, C. rewrite B, C, !andb_true_r.
    destruct A as [-> | ->]; rewrite str_eqb_refl; [reflexivity|apply orb_true_r].
Qed.
Lemma mentions_iff n l : mentions n l = true <-> mentioned n l.
Proof.
  unfold mentions, mentioned. rewrite existsb_exists. split.
  - intros (w & I & H). exists (words l), w. split; [apply words_rel|]. split; [exact I|now apply contains_occurs].
  - intros (ws & w & W & I & H). apply words_fun in W. subst ws. exists w. split; [exact I|now apply contains_occurs].
Qed.
Lemma header_mentioned n l : header_line n l -> mentioned n l.
Proof. intros (w0 & w1 & w2 & more & W & _ & _ & C). exists (w0 :: w1 :: w2 :: more), w2. split; [exact W|]. split; [now right; right; left|exact C]. Qed.
Lemma find_table_inv lines n : forall k r, find_table lines n k = Ok r ->
  match r with
  | Some h => h <= k /\ header_line n (nth h lines []) /\ forall i, h < i <= k -> ~ mentioned n (nth i lines [])
  | None => forall i, i <= k -> ~ mentioned n (nth i lines [])
  end.
Proof.
  induction k as [|k IH]; intros r H; cbn [find_table] in H.
  - destruct (is_header n (nth 0 lines [])) eqn:E.
    + apply Ok_inj in H. subst r. split; [lia|]. split; [now apply header_iff|]. intros i B. lia.
    + destruct (mentions n (nth 0 lines [])) eqn:M; [discriminate|]. apply Ok_inj in H. subst r. intros i B. replace i with 0 by lia. rewrite <- mentions_iff. congruence.
  - destruct (is_header n (nth (Datatypes.S k) lines [])) eqn:E.
    + apply Ok_inj in H. subst r. split; [lia|]. split; [now apply header_iff|]. intros i B. lia.
    + destruct (mentions n (nth (Datatypes.S k) lines [])) eqn:M; [discriminate|]. apply IH in H.
      assert (NM : ~ mentioned n (nth (Datatypes.S k) lines [])) by (rewrite <- mentions_iff; congruence). destruct r as [h|].
      * destruct H as (A & B & C). split; [lia|]. split; [exact B|]. intros i D. destruct (Nat.eq_dec i (Datatypes.S k)) as [->|NE]; [exact NM|apply C; lia].
      * intros i D. destruct (Nat.eq_dec i (Datatypes.S k)) as [->|NE]; [exact NM|apply H; lia].
Qed.
Lemma table_args_inv read lines n start a : table_args read lines n start = Ok a -> mandatory_in a /\
  ((a = [] /\ forall i, i <= start -> ~ mentioned n (nth i lines [])) \/
   exists h, h <= start /\ header_line n (nth h lines []) /\ (forall i, h < i <= start -> ~ mentioned n (nth i lines [])) /\
     ((a = [] /\ words_in (nth (h + 1) lines []) [L "!!"]) \/
      exists x md deps, words_in (nth (h + 1) lines []) [L "!!"; L "\htmlinclude"; x] /\ words_in (nth (h + 2) lines []) [L "!!"] /\ read = Ok (md, deps) /\ a = map fst md)).
Proof.
  unfold table_args. intros H. apply bind_inv in H as (t & F & H). apply find_table_inv in F. destruct t as [h|].
  - destruct F as (A & B & C). apply bind_inv in H as (args & X & H).
    assert (E : a = args /\ mandatory_in a).
    { destruct args as [|y args]; [apply Ok_inj in H; subst a; split; [reflexivity|now left]|].
      match type of H with (if ?c then _ else _) = _ => destruct c eqn:M end; [|discriminate]. apply Ok_inj in H. subst a. split; [reflexivity|]. right.
      rewrite forallb_forall in M. split; apply mem_in, M; [now left|now right; left]. }
    destruct E as [-> E]. split; [exact E|]. right. exists h. split; [exact A|]. split; [exact B|]. split; [exact C|].
    destruct (contains (L "htmlinclude") (lower (nth (h + 1) lines []))).
    + destruct (words (nth (h + 1) lines [])) as [|w0 [|w1 [|w2 [|w3 ws]]]] eqn:W; try discriminate.
      destruct (str_eqb w0 (L "!!") && str_eqb w1 (L "\htmlinclude"))%bool eqn:E2; [|discriminate]. apply andb_true_iff in E2 as [E2 E3]. apply str_eqb_eq in E2, E3. subst w0 w1.
      apply bind_inv in X as ([md deps] & R & X). destruct (words (nth (h + 2) lines [])) as [|v [|v2 vr]] eqn:V; try discriminate.
      destruct (str_eqb v (L "!!")) eqn:E4; [|discriminate]. apply str_eqb_eq in E4. subst v. apply Ok_inj in X. subst args.
      right. exists w2, md, deps. split; [rewrite <- W; apply words_rel|]. split; [rewrite <- V; apply words_rel|]. auto.
    + destruct (words (nth (h + 1) lines [])) as [|v [|v2 vr]] eqn:V; try discriminate.
      destruct (str_eqb v (L "!!")) eqn:E4; [|discriminate]. apply str_eqb_eq in E4. subst v. apply Ok_inj in X. subst args.
      left. split; [reflexivity|]. rewrite <- V. apply words_rel.
  - apply Ok_inj in H. subst a. split; [now left|]. left. auto.
Qed.

(* ---- statements ---- *)
Lemma blanked_fun l t : blanked l t -> amp_blank l = t.
Proof. induction 1 as [|c d l t [[-> ->]|[N ->]] _ IH]; [reflexivity|now rewrite <- IH|]. cbn [amp_blank map]. change (map _ l) with (amp_blank l). rewrite IH. destruct (Ascii.eqb_spec c "&"); [contradiction|reflexivity]. Qed.
Lemma blanked_some l : blanked l (amp_blank l).
Proof. induction l as [|c l IH]; [constructor|]. cbn [amp_blank map]. constructor; [|exact IH]. destruct (Ascii.eqb_spec c "&") as [->|N]; auto. Qed.
Lemma blank_iff l : (str_eqb (strip l) [] || str_eqb (strip l) (L "&"))%bool = true <-> blank l.
Proof. unfold blank. rewrite orb_true_iff, !str_eqb_eq. reflexivity. Qed.
Lemma continued_ends l : continued l -> endswith (L "&") (strip l) = true.
Proof. intros (t & _ & E). apply endswith_ends. now exists t. Qed.
Lemma ends_continued l : ~ blank l -> endswith (L "&") (strip l) = true -> continued l.
Proof. intros B H. apply endswith_ends in H as (t & E). exists t. split; [|exact E]. intros ->. apply B. now right. Qed.
Lemma continued_not_blank l : continued l -> ~ blank l.
Proof.
  intros (t & N & E) [B|B]; rewrite B in E; [destruct t; discriminate|]. destruct t as [|c [|d t]]; [congruence| |]; discriminate.
Qed.
Lemma join_blank b l r : blank l -> join_lines b (l :: r) = join_lines b r.
Proof. intros B. cbn [join_lines]. apply blank_iff in B. now rewrite B. Qed.
Lemma join_cont b l r : continued l -> join_lines b (l :: r) = join_lines (b ++ amp_blank l) r.
Proof.
  intros C. cbn [join_lines]. destruct (str_eqb (strip l) [] || str_eqb (strip l) (L "&"))%bool eqn:B; [apply blank_iff in B; now apply continued_not_blank in C|].
  now rewrite (continued_ends l C).
Qed.
Lemma join_last b l r : ~ blank l -> ~ continued l -> join_lines b (l :: r) = (b ++ amp_blank l) :: join_lines [] r.
Proof.
  intros B C. cbn [join_lines]. destruct (str_eqb (strip l) [] || str_eqb (strip l) (L "&"))%bool eqn:E; [apply blank_iff in E; contradiction|].
  destruct (endswith (L "&") (strip l)) eqn:F; [elim C; now apply ends_continued|reflexivity].
Qed.
Lemma statement_join a t : statement a t -> forall b r, join_lines b (a ++ r) = (b ++ t) :: join_lines [] r.
Proof.
  induction 1 as [l t B C E|l ls t B S IH|l u ls t C E S IH]; intros b r; cbn [app].
  - apply blanked_fun in E. subst t. now apply join_last.
  - rewrite join_blank by exact B. apply IH.
  - apply blanked_fun in E. subst u. rewrite join_cont by exact C. rewrite IH. now rewrite app_assoc.
Qed.
Lemma rest_join ls : Forall (fun l => blank l \/ continued l) ls -> forall b, join_lines b ls = [].
Proof. induction 1 as [|l ls [B|C] F IH]; intros b; [reflexivity|now rewrite join_blank|now rewrite join_cont]. Qed.
Lemma logical_join file lines : logical file lines -> join_lines [] file = lines.
Proof. induction 1 as [ls F|a t b out S L IH]; [now apply rest_join|]. rewrite (statement_join a t S). cbn [app]. now rewrite IH. Qed.
Lemma blank_dec l : {blank l} + {~ blank l}.
Proof. destruct (str_eqb (strip l) [] || str_eqb (strip l) (L "&"))%bool eqn:E; [left; now apply blank_iff|right; intros B; apply blank_iff in B; congruence]. Qed.
Lemma cont_dec l : {continued l} + {~ continued l}.
Proof.
  destruct (blank_dec l) as [B|B]; [right; intros C; now apply continued_not_blank in C|].
  destruct (endswith (L "&") (strip l)) eqn:F; [left; now apply ends_continued|right; intros C; apply continued_ends in C; congruence].
Qed.
Lemma logical_some file : exists lines, logical file lines.
Proof.
  induction file as [|l r (out & IH)]; [exists []; constructor; constructor|].
  destruct (blank_dec l) as [B|B]; [|destruct (cont_dec l) as [C|C]].
  - inversion IH as [ls F|a t b o S Lg]; subst; [exists []; constructor; constructor; auto|]. exists (t :: o). change (l :: a ++ b) with ((l :: a) ++ b). constructor; [now apply St_blank|exact Lg].
  - inversion IH as [ls F|a t b o S Lg]; subst; [exists []; constructor; constructor; auto|]. exists ((amp_blank l ++ t) :: o). change (l :: a ++ b) with ((l :: a) ++ b).
    constructor; [apply St_cont; auto; apply blanked_some|exact Lg].
  - exists (amp_blank l :: out). change (l :: r) with ([l] ++ r). constructor; [|exact IH]. apply St_last; auto. apply blanked_some.
Qed.
