(* PreProofs.v: lemmas for C89 and C90. *)
From Verif Require Import PyStr ReqModel ReqProofs UnitModel CommonModel DictModel DictProofs CheckProofs PreModel PreSpec.
From Coq Require Import Lia Permutation.
Open Scope nat_scope.
Open Scope list_scope.

Lemma fold_res_inv {A B} (f : A -> B -> res A) (P : A -> list B -> Prop) l : forall a done,
  P a done -> (forall a d x a', P a d -> In x l -> f a x = Ok a' -> P a' (d ++ [x])) -> forall r, fold_res f a l = Ok r -> P r (done ++ l).
Proof.
  induction l as [|x l IH]; intros a done Pa St r E; cbn [fold_res] in E.
  - injection E as <-. now rewrite app_nil_r.
  - destruct (f a x) as [a'|] eqn:Fx; [|discriminate]. cbn [bind] in E.
    replace (done ++ x :: l) with ((done ++ [x]) ++ l) by now rewrite <- app_assoc.
    apply (IH a' (done ++ [x])); auto.
    + eapply St; eauto. now left.
    + intros a0 d x0 a0' P0 I. apply St; auto. now right.
Qed.
Lemma fold_res_ok {A B} (f : A -> B -> res A) (P : A -> list B -> Prop) l : forall a done,
  P a done -> (forall a d x, P a d -> In x l -> exists a', f a x = Ok a' /\ P a' (d ++ [x])) -> exists r, fold_res f a l = Ok r /\ P r (done ++ l).
Proof.
  induction l as [|x l IH]; intros a done Pa St; cbn [fold_res].
  - exists a. now rewrite app_nil_r.
  - destruct (St a done x Pa) as (a' & E & P'); [now left|]. rewrite E. cbn [bind].
    destruct (IH a' (done ++ [x]) P') as (r & Er & Pr).
    + intros a0 d x0 P0 I. apply St; auto. now right.
    + exists r. split; [exact Er|]. replace (done ++ x :: l) with ((done ++ [x]) ++ l) by now rewrite <- app_assoc. exact Pr.
Qed.
Lemma map_res_F2 {A B} (f : A -> res B) l : forall r, map_res f l = Ok r -> Forall2 (fun x y => f x = Ok y) l r.
Proof.
  induction l as [|x l IH]; intros r E; cbn [map_res] in E; [injection E as <-; constructor|].
  destruct (f x) eqn:Fx; [|discriminate]. cbn [bind] in E. destruct (map_res f l) eqn:M; [|discriminate]. cbn [bind] in E.
  injection E as <-. constructor; auto.
Qed.

(* ---- compatible ---- *)
Lemma starts_spec (p s : str) : startswith p s = true <-> exists r, s = p ++ r.
Proof.
  unfold startswith. revert s. induction p as [|c p IH]; intros s; cbn [after_prefix app].
  - split; [intros _; now exists s|reflexivity].
  - destruct s as [|d s]; [split; [discriminate|intros (r & H); discriminate]|].
    destruct (Ascii.eqb c d) eqn:E.
    + apply Ascii.eqb_eq in E. subst. rewrite IH. split; intros (r & H); exists r; [now rewrite H|now injection H].
    + apply Ascii.eqb_neq in E. split; [discriminate|]. intros (r & H). injection H as H _. congruence.
Qed.
Lemma pcompat_spec a b : pcompat a b = true <-> same_shape a b /\ kinds_match a b.
Proof.
  unfold pcompat, same_shape, kinds_match. split.
  - destruct (str_eqb (p_type a) (L "character") && _) eqn:E; rewrite !andb_true_iff, ?str_eqb_eq, Nat.eqb_eq.
    + intros [[H1 H2] H3]. split; [auto|]. right. apply andb_true_iff in E as [E1 E2]. apply str_eqb_eq in E1. split; [exact E1|].
      apply orb_true_iff in E2 as [E2|E2]; apply andb_true_iff in E2 as [E2 E3].
      * apply str_eqb_eq in E2. apply starts_spec in E3 as (m & E3). exists (L "*"), m. rewrite E2. auto.
      * apply str_eqb_eq in E3. apply starts_spec in E2 as (n & E2). exists n, (L "*"). rewrite E3. auto.
    + intros [[[H1 H2] H4] H3]. auto.
  - intros [(H1 & H2 & H3) K]. destruct (str_eqb (p_type a) (L "character") && _) eqn:E; rewrite !andb_true_iff, ?str_eqb_eq, Nat.eqb_eq; [auto|].
    destruct K as [K|(T & n & m & Kn & Km & O)]; [auto|]. exfalso. rewrite T, str_eqb_refl in E. cbn [andb] in E.
    apply orb_false_iff in E as [E1 E2]. rewrite andb_false_iff in E1, E2.
    assert (Sa : startswith (L "len=") (p_kind a) = true) by (apply starts_spec; eauto).
    assert (Sb : startswith (L "len=") (p_kind b) = true) by (apply starts_spec; eauto).
    rewrite Sb in E1. rewrite Sa in E2. destruct O as [-> | ->].
    + destruct E1 as [E1|E1]; [|discriminate]. rewrite Kn in E1. discriminate.
    + destruct E2 as [E2|E2]; [discriminate|]. rewrite Km in E2. discriminate.
Qed.
Definition agree (a b : pvar) : Prop := same_shape a b /\ (p_type a <> L "character" -> p_kind a = p_kind b).
Lemma agree_refl a : agree a a. Proof. unfold agree, same_shape. auto. Qed.
Lemma agree_sym a b : agree a b -> agree b a.
Proof. unfold agree, same_shape. intros ((A & B & C) & D). repeat split; auto. intros N. symmetry. apply D. congruence. Qed.
Lemma agree_trans a b c : agree a b -> agree b c -> agree a c.
Proof.
  unfold agree, same_shape. intros ((A & B & C) & D) ((E & F & G) & H). repeat split; try congruence.
  intros N. rewrite D by exact N. apply H. congruence.
Qed.
Lemma pcompat_agree a b : pcompat a b = true -> agree a b.
Proof.
  intros H. apply pcompat_spec in H as [S K]. split; [exact S|]. intros N. destruct K as [K|[T _]]; [exact K|congruence].
Qed.
Lemma agree_pcompat a b : p_type a <> L "character" -> agree a b -> pcompat a b = true.
Proof. intros N [S K]. apply pcompat_spec. split; [exact S|]. left. auto. Qed.

(* ---- dictionaries of requests ---- *)
Definition inv (m : meta) (R : pvar -> Prop) : Prop :=
  (forall v, R v -> exists l, get (p_std v) m = Some l /\ In v l) /\
  (forall k l, get k m = Some l -> l <> [] /\ (forall v, In v l -> R v /\ p_std v = k) /\ (forall a b, In a l -> In b l -> agree a b)).
Lemma inv_ext m R R' : (forall v, R v <-> R' v) -> inv m R -> inv m R'.
Proof.
  intros E [A B]. split.
  - intros v H. apply A, E, H.
  - intros k l H. destruct (B k l H) as (B1 & B2 & B3). split; [exact B1|]. split; [|exact B3]. intros v I. destruct (B2 v I). split; [now apply E|assumption].
Qed.
Lemma inv_empty : inv [] (fun _ => False).
Proof. split; [intros v []|]. intros k l H. discriminate. Qed.
Lemma add_var_inv m R v m' : inv m R -> add_var m v = Ok m' -> inv m' (fun w => R w \/ w = v).
Proof.
  intros [A B] E. unfold add_var in E.
  assert (K : exists l, m' = set (p_std v) l m /\ l <> [] /\ In v l /\ (forall w, In w l -> w = v \/ exists l0, get (p_std v) m = Some l0 /\ In w l0) /\
              (forall l0 w, get (p_std v) m = Some l0 -> In w l0 -> In w l) /\ forall a b, In a l -> In b l -> agree a b).
  { destruct (get (p_std v) m) as [l|] eqn:G.
    - destruct (forallb (fun e => pcompat e v) l) eqn:F; [|discriminate]. injection E as <-. exists (l ++ [v]).
      rewrite forallb_forall in F. destruct (B _ _ G) as (B1 & B2 & B3).
      split; [reflexivity|]. split; [intros H; apply app_eq_nil in H as [_ H]; discriminate|].
      split; [apply in_or_app; right; now left|]. split; [|split].
      + intros w I. apply in_app_or in I as [I|[<-|[]]]; eauto.
      + intros l0 w H I. injection H as <-. apply in_or_app. now left.
      + intros a b Ia Ib. apply in_app_or in Ia as [Ia|[<-|[]]]; apply in_app_or in Ib as [Ib|[<-|[]]]; auto using agree_refl.
        * apply pcompat_agree. auto.
        * apply agree_sym, pcompat_agree. auto.
    - injection E as <-. exists [v]. split; [reflexivity|]. split; [discriminate|]. split; [now left|]. split; [|split].
      + intros w [<-|[]]. now left.
      + discriminate.
      + intros a b [<-|[]] [<-|[]]. apply agree_refl. }
  destruct K as (l & -> & K1 & K2 & K3 & K4 & K5). split.
  - intros w [W| ->]; rewrite get_set.
    + destruct (A w W) as (l0 & G & I). destruct (str_eqb (p_std w) (p_std v)) eqn:S; [|eauto].
      apply str_eqb_eq in S. rewrite S in G. eauto.
    + rewrite str_eqb_refl. eauto.
  - intros k l1. rewrite get_set. destruct (str_eqb k (p_std v)) eqn:S.
    + intros [= <-]. apply str_eqb_eq in S. split; [exact K1|]. split; [|exact K5].
      intros w I. destruct (K3 w I) as [-> |(l0 & G & I0)]; [auto|]. destruct (B _ _ G) as (_ & B2 & _). destruct (B2 w I0). split; [now left|congruence].
    + intros G. destruct (B _ _ G) as (B1 & B2 & B3). split; [exact B1|]. split; [|exact B3]. intros w I. destruct (B2 w I). auto.
Qed.
Lemma add_table_inv m R t m' : inv m R -> add_table m t = Ok m' -> inv m' (fun w => R w \/ In w t).
Proof.
  intros I E. unfold add_table in E. destruct (check_table [] t) as [u|]; [|discriminate]. cbn [bind] in E.
  eapply (fold_res_inv add_var (fun m d => inv m (fun w => R w \/ In w d)) t m []) in E.
  - exact E.
  - eapply inv_ext; [|exact I]. cbn. tauto.
  - intros a d x a' Pa _ Fa. eapply inv_ext; [|eapply add_var_inv; eassumption]. intros v. cbn. rewrite in_app_iff. cbn. intuition.
Qed.
Lemma read_file_inv f m : read_file f = Ok m -> inv m (fun w => exists t, In t f /\ In w t).
Proof.
  intros E. unfold read_file in E.
  eapply (fold_res_inv add_table (fun m d => inv m (fun w => exists t, In t d /\ In w t)) f [] []) in E.
  - exact E.
  - eapply inv_ext; [|apply inv_empty]. intros v. cbn. split; [tauto|intros (t & [] & _)].
  - intros a d x a' Pa _ Fa. eapply inv_ext; [|eapply add_table_inv; eassumption]. intros v. cbn. split.
    + intros [(t & I & J)|J]; [exists t|exists x]; rewrite in_app_iff; cbn; auto.
    + intros (t & I & J). apply in_app_or in I as [I|[<-|[]]]; eauto.
Qed.
(* ---- merge ---- *)
Lemma in_dedup l y : In y (dedup l) <-> In y l.
Proof. unfold dedup. change (fold_left s_add l []) with (s_union [] l). rewrite in_s_union. cbn. tauto. Qed.
Lemma nodup_dedup l : NoDup (dedup l).
Proof. unfold dedup. change (fold_left s_add l []) with (s_union [] l). apply nd_union. constructor. Qed.
Lemma get_some_key {A} k (m : list (str * A)) l : get k m = Some l -> In k (map fst m).
Proof. intros H. apply get_in in H. apply (in_map fst) in H. exact H. Qed.
Definition merged (x y : meta) (k : str) : option (list pvar) :=
  match get k x, get k y with
  | Some a, Some b => Some (a ++ b) | Some a, None => Some a | None, Some b => Some b | None, None => None
  end.
Lemma merge_get x y z : merge x y = Ok z -> forall k, get k z = merged x y k /\
  (forall a b, get k x = Some a -> get k y = Some b -> exists v w ra rb, a = v :: ra /\ b = w :: rb /\ pcompat v w = true).
Proof.
  intros E. unfold merge in E.
  assert (P : forall k, (In k (sorted (dedup (map fst x ++ map fst y))) -> get k z = merged x y k) /\
    (~ In k (sorted (dedup (map fst x ++ map fst y))) -> get k z = None) /\
    (In k (sorted (dedup (map fst x ++ map fst y))) -> forall a b, get k x = Some a -> get k y = Some b -> exists v w ra rb, a = v :: ra /\ b = w :: rb /\ pcompat v w = true)).
  { intros k.
    apply (fold_res_inv (merge_key x y) (fun z d => (In k d -> get k z = merged x y k) /\ (~ In k d -> get k z = None) /\
      (In k d -> forall a b, get k x = Some a -> get k y = Some b -> exists v w ra rb, a = v :: ra /\ b = w :: rb /\ pcompat v w = true)) _ [] []) in E; [exact E|cbn; repeat split; tauto|].
    intros z0 d k' z1 (P1 & P2 & P3) _ F. unfold merge_key in F.
    assert (Q : z1 = match merged x y k' with Some l => set k' l z0 | None => z0 end /\
       (forall a b, get k' x = Some a -> get k' y = Some b -> exists v w ra rb, a = v :: ra /\ b = w :: rb /\ pcompat v w = true)).
    { unfold merged. destruct (get k' x) as [lx|], (get k' y) as [ly|].
      - destruct lx as [|v ra]; [discriminate|]. destruct ly as [|w rb]; [discriminate|]. destruct (pcompat v w) eqn:C; [|discriminate].
        injection F as <-. split; [reflexivity|]. intros a b [= <-] [= <-]. exists v, w, ra, rb. auto.
      - injection F as <-. split; [reflexivity|]. intros a b _ H. discriminate.
      - injection F as <-. split; [reflexivity|]. intros a b H. discriminate.
      - injection F as <-. split; [reflexivity|]. intros a b H. discriminate. }
    destruct Q as [Z1 Q]. rewrite !in_app_iff. cbn [In].
    destruct (str_eqb k k') eqn:S.
    - apply str_eqb_eq in S. subst k'. split; [|split; [tauto|intros _; exact Q]].
      intros _. rewrite Z1. destruct (merged x y k) eqn:M; [now rewrite get_set, str_eqb_refl|].
      destruct (in_dec (list_eq_dec Ascii.ascii_dec) k d) as [I|I]; [now apply P1|now apply P2].
    - apply str_eqb_neq in S.
      assert (G : get k z1 = get k z0).
      { rewrite Z1. destruct (merged x y k'); [|reflexivity]. rewrite get_set. apply str_eqb_neq in S. now rewrite S. }
      rewrite G. split; [|split].
      + intros [I|[I|[]]]; [auto|congruence].
      + intros N. apply P2. tauto.
      + intros [I|[I|[]]]; [auto|congruence]. }
  intros k. destruct (P k) as (P1 & P2 & P3). destruct (in_dec (list_eq_dec Ascii.ascii_dec) k (sorted (dedup (map fst x ++ map fst y)))) as [I|I]; [auto|].
  rewrite in_sorted, in_dedup, in_app_iff in I.
  assert (NX : get k x = None) by (apply get_none; tauto). assert (NY : get k y = None) by (apply get_none; tauto).
  split; [unfold merged; rewrite NX, NY; apply P2; rewrite in_sorted, in_dedup, in_app_iff; tauto|]. rewrite NX. discriminate.
Qed.
Lemma merge_inv x y z R S : inv x R -> inv y S -> merge x y = Ok z -> inv z (fun w => R w \/ S w).
Proof.
  intros [A1 A2] [B1 B2] E. pose proof (merge_get _ _ _ E) as G. split.
  - intros v [H|H].
    + destruct (A1 v H) as (l & H1 & H2). rewrite (proj1 (G _)). unfold merged. rewrite H1. destruct (get (p_std v) y); eexists; split; eauto. apply in_or_app. now left.
    + destruct (B1 v H) as (l & H1 & H2). rewrite (proj1 (G _)). unfold merged. rewrite H1. destruct (get (p_std v) x); eexists; split; eauto. apply in_or_app. now right.
  - intros k l H. rewrite (proj1 (G _)) in H. unfold merged in H. pose proof (proj2 (G k)) as C.
    destruct (get k x) as [lx|] eqn:X, (get k y) as [ly|] eqn:Y; try discriminate; injection H as <-.
    + destruct (A2 _ _ X) as (X1 & X2 & X3). destruct (B2 _ _ Y) as (Y1 & Y2 & Y3).
      destruct (C _ _ eq_refl eq_refl) as (v & w & ra & rb & -> & -> & K). apply pcompat_agree in K.
      split; [discriminate|]. split.
      * intros u I. apply in_app_or in I as [I|I]; [destruct (X2 u I)|destruct (Y2 u I)]; auto.
      * assert (T : forall a b, In a (v :: ra) -> In b (w :: rb) -> agree a b).
        { intros a b Ia Ib. eapply agree_trans; [apply (X3 a v); [exact Ia|now left]|]. eapply agree_trans; [exact K|]. apply Y3; [now left|exact Ib]. }
        intros a b Ia Ib. apply in_app_or in Ia as [Ia|Ia]; apply in_app_or in Ib as [Ib|Ib]; auto using agree_sym.
    + destruct (A2 _ _ X) as (X1 & X2 & X3). split; [exact X1|]. split; [|exact X3]. intros u I. destruct (X2 u I). auto.
    + destruct (B2 _ _ Y) as (X1 & X2 & X3). split; [exact X1|]. split; [|exact X3]. intros u I. destruct (X2 u I). auto.
Qed.
Lemma collect_inv files m : collect files = Ok m -> inv m (requested files).
Proof.
  intros E. unfold collect in E.
  eapply (fold_res_inv _ (fun m d => inv m (requested d)) files [] []) in E; [exact E| |].
  - eapply inv_ext; [|apply inv_empty]. intros v. unfold requested. split; [tauto|]. intros (f & t & [] & _).
  - intros a d f a' Pa _ F. cbv beta in F. destruct (read_file f) as [y|] eqn:Ef; [|discriminate]. cbn [bind] in F.
    eapply inv_ext; [|eapply merge_inv; [exact Pa|apply read_file_inv; exact Ef|exact F]]. intros v. unfold requested. split.
    + intros [(g & t & I & J)|(t & I & J)]; [exists g, t|exists f, t]; rewrite in_app_iff; cbn; tauto.
    + intros (g & t & I & J & K). apply in_app_or in I as [I|[<-|[]]]; [left; eauto|right; eauto].
Qed.
(* ---- success ---- *)
Lemma check_table_ok t : forall seen, check_table seen t = Ok tt <-> NoDup (map p_std t) /\ forall v, In v t -> ~ In (p_std v) seen.
Proof.
  induction t as [|v t IH]; intros seen; cbn [check_table map].
  - split; [|reflexivity]. intros _. split; [constructor|intros v []].
  - destruct (mem (p_std v) seen) eqn:M.
    + apply mem_in in M. split; [discriminate|]. intros [_ H]. exfalso. apply (H v); [now left|exact M].
    + apply mem_not in M. rewrite IH. split.
      * intros [N D]. split.
        -- constructor; [|exact N]. intros I. apply in_map_iff in I as (w & E & I). apply (D w I). now left.
        -- intros w [<-|I]; [exact M|]. intros J. apply (D w I). now right.
      * intros [N D]. inversion N; subst. split; [assumption|]. intros w I [E|J].
        -- apply H1. rewrite E. now apply in_map.
        -- apply (D w); [now right|exact J].
Qed.
Section Good.
Variable good : pvar -> Prop.
Hypothesis good_type : forall v, good v -> p_type v <> L "character".
Hypothesis good_agree : forall v w, good v -> good w -> p_std v = p_std w -> agree v w.
Lemma add_var_ok m R v : inv m R -> (forall w, R w -> good w) -> good v -> exists m', add_var m v = Ok m' /\ inv m' (fun w => R w \/ w = v).
Proof.
  intros I G Gv.
  assert (E : exists m', add_var m v = Ok m').
  { unfold add_var. destruct (get (p_std v) m) as [l|] eqn:E; [|eauto].
    assert (F : forallb (fun e => pcompat e v) l = true).
    { apply forallb_forall. intros e Ie. destruct I as [_ I]. destruct (I _ _ E) as (_ & I2 & _). destruct (I2 e Ie) as [J1 J2].
      apply agree_pcompat; auto. }
    rewrite F. eauto. }
  destruct E as (m' & E). exists m'. split; [exact E|]. eapply add_var_inv; eassumption.
Qed.
Lemma add_table_ok m R t : inv m R -> (forall w, R w -> good w) -> (forall w, In w t -> good w) -> NoDup (map p_std t) ->
  exists m', add_table m t = Ok m' /\ inv m' (fun w => R w \/ In w t).
Proof.
  intros I G Gt N. unfold add_table. rewrite (proj2 (check_table_ok t [])) by (split; [exact N|intros v _ []]). cbn [bind].
  enough (K : exists r, fold_res add_var m t = Ok r /\ inv r (fun w => R w \/ In w ([] ++ t)) /\ (forall w, In w ([] ++ t) -> good w)).
  { destruct K as (r & E & J & _). exists r. split; [exact E|exact J]. }
  apply (fold_res_ok add_var (fun m d => inv m (fun w => R w \/ In w d) /\ forall w, In w d -> good w) t m []).
  - split; [|intros w []]. eapply inv_ext; [|exact I]. cbn. tauto.
  - intros a d x [Pa Pd] Ix. destruct (add_var_ok a (fun w => R w \/ In w d) x) as (m' & E & J); auto; [intros w [?|?]; auto|].
    exists m'. split; [exact E|]. split.
    + eapply inv_ext; [|exact J]. intros v. cbn. rewrite in_app_iff. cbn. intuition.
    + intros w Iw. apply in_app_or in Iw as [Iw|[<-|[]]]; auto.
Qed.
Lemma read_file_ok f : (forall t w, In t f -> In w t -> good w) -> (forall t, In t f -> NoDup (map p_std t)) ->
  exists m, read_file f = Ok m /\ inv m (fun w => exists t, In t f /\ In w t).
Proof.
  intros G N. unfold read_file.
  enough (K : exists r, fold_res add_table [] f = Ok r /\ inv r (fun w => exists t, In t ([] ++ f) /\ In w t) /\ (forall t w, In t ([] ++ f) -> In w t -> good w)).
  { destruct K as (r & E & J & _). exists r. split; [exact E|exact J]. }
  apply (fold_res_ok add_table (fun m d => inv m (fun w => exists t, In t d /\ In w t) /\ forall t w, In t d -> In w t -> good w) f [] []).
  - split; [|intros t w []]. eapply inv_ext; [|apply inv_empty]. intros v. cbn. split; [tauto|intros (t & [] & _)].
  - intros a d x [Pa Pd] Ix. destruct (add_table_ok a (fun w => exists t, In t d /\ In w t) x) as (m' & E & J); auto; [intros w (t & ? & ?); eauto|eauto|].
    exists m'. split; [exact E|]. split.
    + eapply inv_ext; [|exact J]. intros v. cbn. split.
      * intros [(t & I & K)|K]; [exists t|exists x]; rewrite in_app_iff; cbn; auto.
      * intros (t & I & K). apply in_app_or in I as [I|[<-|[]]]; eauto.
    + intros t w It Iw. apply in_app_or in It as [It|[<-|[]]]; eauto.
Qed.
Lemma merge_ok x y R S : inv x R -> inv y S -> (forall w, R w -> good w) -> (forall w, S w -> good w) -> exists z, merge x y = Ok z.
Proof.
  intros [_ A] [_ B] GR GS. unfold merge.
  destruct (fold_res_ok (merge_key x y) (fun _ _ => True) (sorted (dedup (map fst x ++ map fst y))) [] [] Logic.I) as (z & E & _); [|eauto].
  intros z d k _ _. unfold merge_key. destruct (get k x) as [lx|] eqn:X, (get k y) as [ly|] eqn:Y; eauto.
  destruct (A _ _ X) as (X1 & X2 & _). destruct (B _ _ Y) as (Y1 & Y2 & _).
  destruct lx as [|v ra]; [congruence|]. destruct ly as [|w rb]; [congruence|].
  destruct (X2 v (or_introl eq_refl)) as [Rv Sv]. destruct (Y2 w (or_introl eq_refl)) as [Rw Sw].
  rewrite agree_pcompat; eauto. apply good_agree; auto. congruence.
Qed.
Lemma collect_ok files : (forall v, requested files v -> good v) -> (forall f t, In f files -> In t f -> NoDup (map p_std t)) ->
  exists m, collect files = Ok m.
Proof.
  intros G N. unfold collect.
  enough (K : exists r, fold_res (fun m f => y <- read_file f ;; merge m y) [] files = Ok r /\ inv r (requested ([] ++ files)) /\ (forall v, requested ([] ++ files) v -> good v)).
  { destruct K as (r & E & _). eauto. }
  apply (fold_res_ok _ (fun m d => inv m (requested d) /\ forall v, requested d v -> good v) files [] []).
  - split.
    + eapply inv_ext; [|apply inv_empty]. intros v. unfold requested. split; [tauto|]. intros (f & t & [] & _).
    + intros v (f & t & [] & _).
  - intros a d f [Pa Pd] If.
    destruct (read_file_ok f) as (y & E & J); [intros t w It Iw; apply G; exists f, t; auto|eauto|].
    destruct (merge_ok a y (requested d) (fun w => exists t, In t f /\ In w t)) as (z & Z); auto.
    { intros w (t & It & Iw). apply G. exists f, t. auto. }
    exists z. rewrite E. cbn [bind]. split; [exact Z|].
    assert (Q : forall v, (requested d v \/ exists t, In t f /\ In v t) <-> requested (d ++ [f]) v).
    { intros v. unfold requested. split.
      - intros [(g & t & I & K)|(t & I & K)]; [exists g, t|exists f, t]; rewrite in_app_iff; cbn; tauto.
      - intros (g & t & I & K & M). apply in_app_or in I as [I|[<-|[]]]; [left; eauto|right; eauto]. }
    split; [eapply inv_ext; [exact Q|eapply merge_inv; eassumption]|].
    intros v H. apply Q in H as [H|(t & It & Iv)]; auto. apply G. exists f, t. auto.
Qed.
End Good.
Lemma collect_tables files m : collect files = Ok m -> forall f t, In f files -> In t f -> NoDup (map p_std t).
Proof.
  intros E. unfold collect in E.
  refine (fold_res_inv _ (fun m d => forall f t, In f d -> In t f -> NoDup (map p_std t)) files [] [] _ _ m E); [intros f t []|].
  intros a d f a' P _ F g t Ig It. apply in_app_or in Ig as [Ig|[<-|[]]]; [eauto|].
  cbv beta in F. destruct (read_file f) as [y|] eqn:R; [|discriminate]. clear F. unfold read_file in R.
  refine (fold_res_inv _ (fun m d => forall t, In t d -> NoDup (map p_std t)) f [] [] _ _ y R t It); [intros t0 []|].
  intros b e t' b' P' _ F u Iu. apply in_app_or in Iu as [Iu|[<-|[]]]; [eauto|].
  unfold add_table in F. destruct (check_table [] t') as [[]|] eqn:C; [|discriminate]. now apply check_table_ok in C.
Qed.

(* ---- compare ---- *)
Lemma split_head (i : str) : exists h r, split_on "_" i = h :: r /\ (r = [] /\ i = h \/ i = h ++ L "_" ++ join (L "_") r) /\ ~ In "_"%char h.
Proof.
  destruct (split_on "_" i) as [|h r] eqn:E; [exfalso; eapply split_on_nonempty; eauto|]. exists h, r. split; [reflexivity|].
  pose proof (join_split "_" i) as J. rewrite E in J. split.
  - destruct r as [|x r]; [left; split; [reflexivity|]; cbn in J; congruence|right].
    rewrite <- J. reflexivity.
  - eapply split_on_no_sep. rewrite E. now left.
Qed.
Lemma head_spec (w i : str) : ~ In "_"%char w -> (item_head i = w <-> i = w \/ exists r, i = w ++ L "_" ++ r).
Proof.
  intros N. unfold item_head. split.
  - destruct (split_head i) as (h & r & E & [[-> H]|H] & _); rewrite E; intros <-; eauto.
  - intros [-> |(r & ->)]; [now rewrite split_none|]. cbn [app L]. change (L "_") with ["_"%char]. cbn [app]. now rewrite split_app.
Qed.
Lemma no_us_module : ~ In "_"%char (L "MODULE"). Proof. cbn. intuition discriminate. Qed.
Lemma no_us_type : ~ In "_"%char (L "TYPE"). Proof. cbn. intuition discriminate. Qed.
Lemma host_container_spec c : forallb item_known (split_on " " c) = true <-> host_container c.
Proof.
  unfold host_container. rewrite forallb_forall, Forall_forall.
  assert (K : forall i, item_known i = true <-> exists r, i = L "MODULE_" ++ r \/ i = L "TYPE_" ++ r \/ i = L "MODULE" \/ i = L "TYPE").
  { intros i. unfold item_known. rewrite orb_true_iff, !str_eqb_eq, (head_spec _ _ no_us_module), (head_spec _ _ no_us_type). split.
    - intros [[-> |(r & ->)]|[-> |(r & ->)]]; [exists []|exists r|exists []|exists r]; auto.
    - intros (r & [-> |[-> |[-> | ->]]]); [left; right; exists r|right; right; exists r| | ]; auto. }
  split; intros H i I; apply K, H, I.
Qed.
Lemma item_modules_spec (i x : str) : In x (item_modules i) <-> i = L "MODULE_" ++ x \/ i = L "MODULE" /\ x = [].
Proof.
  unfold item_modules. destruct (str_eqb (item_head i) (L "MODULE")) eqn:E.
  - apply str_eqb_eq in E. apply (head_spec _ _ no_us_module) in E as [-> |(r & ->)].
    + cbn. split; [intros [<-|[]]; auto|]. intros [H|[_ ->]]; [discriminate|now left].
    + change (L "MODULE" ++ L "_" ++ r) with (L "MODULE" ++ "_"%char :: r). rewrite split_app by exact no_us_module. cbn [tl].
      change (L "_") with ["_"%char]. rewrite join_split. cbn [In]. split.
      * intros [<-|[]]. now left.
      * intros [H|[H _]]; [left|discriminate]. change (L "MODULE_" ++ x) with (L "MODULE" ++ "_"%char :: x) in H. now injection H.
  - apply str_eqb_neq in E. cbn. split; [tauto|]. intros H. apply E, (head_spec _ _ no_us_module). destruct H as [-> |[-> _]]; [right; now exists x|now left].
Qed.
Definition acted (h v v' : pvar) : Prop :=
  (p_units v = p_units h -> p_in v' = p_in v /\ p_out v' = p_out v) /\
  (p_units v <> p_units h ->
    (p_intent v = L "in" -> exists t, conversion (p_units h) (p_units v) t /\ p_in v' = Some t /\ p_out v' = p_out v) /\
    (p_intent v = L "out" -> exists t, conversion (p_units v) (p_units h) t /\ p_out v' = Some t /\ p_in v' = p_in v) /\
    (p_intent v = L "inout" -> exists t u, conversion (p_units h) (p_units v) t /\ conversion (p_units v) (p_units h) u /\ p_in v' = Some t /\ p_out v' = Some u)).
Lemma find_conversion_ok a b t : find_conversion a b = Ok t <-> conversion a b t.
Proof.
  unfold find_conversion, conversion. split.
  - destruct (to_identifier a) as [i|] eqn:A; [|discriminate]. cbn [bind]. destruct (to_identifier b) as [j|] eqn:B; [|discriminate]. cbn [bind].
    destruct (find_fun _ _) eqn:F; [|discriminate]. intros [= <-]. eauto 6.
  - intros (i & j & -> & -> & H). cbn [bind]. now rewrite H.
Qed.
Lemma register_ok h v v1 : register (p_units h) v = Ok v1 ->
  acted h v v1 /\ p_std v1 = p_std v /\ p_units v1 = p_units v /\ p_local v1 = p_local v /\ p_type v1 = p_type v /\ p_rank v1 = p_rank v /\
  p_intent v1 = p_intent v /\ p_cont v1 = p_cont v /\ p_kind v1 = p_kind v.
Proof.
  unfold register, acted. destruct (str_eqb (p_units v) (p_units h)) eqn:U.
  - apply str_eqb_eq in U. intros [= <-]. split; [|auto 10]. split; [auto|]. intros Q. destruct (Q U).
  - apply str_eqb_neq in U. destruct (str_eqb (p_intent v) (L "inout")) eqn:I1; [apply str_eqb_eq in I1|].
    { destruct (find_conversion (p_units h) (p_units v)) as [a|] eqn:A; [|discriminate]. cbn [bind].
      destruct (find_conversion (p_units v) (p_units h)) as [b|] eqn:B; [|discriminate]. cbn [bind]. intros [= <-].
      apply find_conversion_ok in A, B. cbn. split; [|auto 10]. split; [intros Q; destruct (U Q)|]. intros _. split; [|split]; intros Q; rewrite Q in I1; try discriminate; eauto 8. }
    destruct (str_eqb (p_intent v) (L "in")) eqn:I2; [apply str_eqb_eq in I2|].
    { destruct (find_conversion (p_units h) (p_units v)) as [a|] eqn:A; [|discriminate]. cbn [bind]. intros [= <-].
      apply find_conversion_ok in A. cbn. split; [|auto 10]. split; [intros Q; destruct (U Q)|]. intros _. split; [|split]; intros Q; rewrite Q in I2; try discriminate; eauto 8. }
    destruct (str_eqb (p_intent v) (L "out")) eqn:I3; [apply str_eqb_eq in I3|].
    { destruct (find_conversion (p_units v) (p_units h)) as [a|] eqn:A; [|discriminate]. cbn [bind]. intros [= <-].
      apply find_conversion_ok in A. cbn. split; [|auto 10]. split; [intros Q; destruct (U Q)|]. intros _. split; [|split]; intros Q; rewrite Q in I3; try discriminate; eauto 8. }
    apply str_eqb_neq in I1, I2, I3. intros [= <-]. split; [|auto 10]. split; [intros Q; destruct (U Q)|]. intros _. split; [|split]; intros Q; tauto.
Qed.
Lemma retarget_ok h kind mods v v' : (p_type v = L "character" -> kind = Some (p_kind h)) -> retarget (p_local h) kind mods v = Ok v' ->
  matched h v v' /\ p_in v' = p_in v /\ p_out v' = p_out v.
Proof.
  intros K. unfold retarget, matched. destruct mods; [discriminate|].
  destruct (str_eqb (p_type v) (L "character") && str_eqb (p_kind v) (L "len=*")) eqn:E.
  - apply andb_true_iff in E as [E1 _]. apply str_eqb_eq in E1. rewrite (K E1). intros [= <-]. cbn. auto 12.
  - intros [= <-]. cbn. auto 12.
Qed.
Section Compare.
Variables (def req : meta) (R : pvar -> Prop).
Hypothesis IR : inv req R.
Definition compatk (k : str) (h : pvar) : Prop := get k def = Some [h] /\ exists r rs, get k req = Some (r :: rs) /\ pcompat r h = true.
Definition Pst (st : cstate) (d : list str) : Prop :=
  (c_ok st = true <-> forall k, In k d -> exists h, compatk k h /\ host_container (p_cont h)) /\
  (forall k h, In k d -> compatk k h -> exists l l', get k req = Some l /\ get k (c_out st) = Some l' /\ Forall2 (fun v v' => matched h v v' /\ acted h v v') l l') /\
  (forall x, In x (c_mods st) <-> exists k h, In k d /\ compatk k h /\ In x (flat_map item_modules (split_on " " (p_cont h)))) /\
  (forall k, get k (c_out st) <> None -> In k d /\ exists h, compatk k h).
Lemma compare_one_inv st d k st' : Pst st d -> In k (map fst req) -> compare_one def req st k = Ok st' -> Pst st' (d ++ [k]).
Proof.
  intros (P1 & P2 & P3 & P4) _ E. unfold compare_one in E.
  assert (FAIL : (forall h, ~ compatk k h) -> st' = failed st -> Pst st' (d ++ [k])).
  { intros N ->. split; [|split; [|split]]; cbn [failed c_ok c_out c_mods].
    - split; [discriminate|]. intros H. destruct (H k) as (h & C & _); [apply in_or_app; right; now left|]. destruct (N h C).
    - intros k' h I C. apply in_app_or in I as [I|[<-|[]]]; [eauto|]. destruct (N h C).
    - intros x. rewrite P3. split; intros (k' & h & I & C & J); exists k', h; (split; [|auto]); [apply in_or_app; now left|].
      apply in_app_or in I as [I|[<-|[]]]; [exact I|]. destruct (N h C).
    - intros k' H. destruct (P4 k' H). split; [apply in_or_app; now left|assumption]. }
  destruct (get k def) as [[|h [|h2 hs]]|] eqn:D; [discriminate| | |].
  2:{ injection E as <-. apply FAIL; [|reflexivity]. intros h' (A & _). congruence. }
  2:{ injection E as <-. apply FAIL; [|reflexivity]. intros h' (A & _). congruence. }
  destruct (get k req) as [[|r rs]|] eqn:G; try discriminate.
  destruct (pcompat r h) eqn:C; cbn [negb] in E.
  2:{ injection E as <-. apply FAIL; [|reflexivity]. intros h' (A & r' & rs' & B & B2). rewrite D in A. injection A as <-. rewrite G in B. injection B as <- <-. congruence. }
  destruct (map_res (register (p_units h)) (r :: rs)) as [conv|] eqn:M; [|discriminate]. cbn [bind] in E. cbn zeta in E.
  set (kind := if str_eqb (p_type h) (L "character") then Some (p_kind h) else c_kind st) in *.
  set (mods := c_mods st ++ flat_map item_modules (split_on " " (p_cont h))) in *.
  destruct (map_res (retarget (p_local h) kind mods) conv) as [out|] eqn:T; [|discriminate]. cbn [bind] in E. injection E as <-.
  assert (CK : compatk k h) by (split; [exact D|eauto]).
  assert (UNIQ : forall h', compatk k h' -> h' = h) by (intros h' (A & _); congruence).
  apply map_res_F2 in M, T.
  assert (F : Forall2 (fun v v' => matched h v v' /\ acted h v v') (r :: rs) out).
  { assert (TY : forall v, In v (r :: rs) -> p_type v = p_type h).
    { intros v Iv. destruct IR as [_ I2]. destruct (I2 _ _ G) as (_ & _ & AG). destruct (AG v r Iv (or_introl eq_refl)) as ((_ & A & _) & _).
      apply pcompat_spec in C as [(_ & B & _) _]. congruence. }
    revert M T TY. generalize (r :: rs). clear -D. intros l M. revert out. induction M as [|v v1 l l1 Rv _ IH]; intros out T TY; inversion T; subst; constructor.
    - apply register_ok in Rv as (A & R1 & R2 & R3 & R4 & R5 & R6 & R7 & R8).
      assert (KD : p_type v1 = L "character" -> kind = Some (p_kind h)).
      { intros Q. unfold kind. rewrite <- (TY v) by now left. rewrite <- R4, Q, str_eqb_refl. reflexivity. }
      apply (retarget_ok h) in H1 as ((Q1 & Q2 & Q3 & Q4 & Q5 & Q6 & Q7 & Q8 & Q9) & Q10 & Q11); [|exact KD].
      rewrite R1 in Q1. rewrite R2 in Q2. rewrite R3 in Q3. rewrite R4 in Q4, Q9. rewrite R5 in Q5. rewrite R6 in Q6. rewrite R7 in Q7. rewrite R8 in Q9.
      split; [unfold matched; auto 12|]. unfold acted in *. rewrite Q10, Q11. exact A.
    - apply IH; auto. intros v0 I0. apply TY. now right. }
  split; [|split; [|split]]; cbn [c_ok c_out c_mods].
  - rewrite andb_true_iff, P1, host_container_spec. split.
    + intros [A B] k' I. apply in_app_or in I as [I|[<-|[]]]; [auto|]. exists h. auto.
    + intros A. split; [intros k' I; apply A, in_or_app; now left|]. destruct (A k) as (h' & C' & B); [apply in_or_app; right; now left|]. now rewrite <- (UNIQ h' C').
  - intros k' h' I C'. rewrite get_set. destruct (str_eqb k' k) eqn:S.
    + apply str_eqb_eq in S. subst k'. rewrite (UNIQ h' C'). exists (r :: rs), out. auto.
    + apply str_eqb_neq in S. apply in_app_or in I as [I|[I|[]]]; [eauto|congruence].
  - intros x. unfold mods. rewrite in_app_iff, P3. split.
    + intros [(k' & h' & I & C' & J)|J]; [exists k', h'|exists k, h]; (split; [apply in_or_app|auto]); [now left|right; now left].
    + intros (k' & h' & I & C' & J). apply in_app_or in I as [I|[<-|[]]]; [left; eauto|]. right. now rewrite <- (UNIQ h' C').
  - intros k'. rewrite get_set. destruct (str_eqb k' k) eqn:S.
    + apply str_eqb_eq in S. subst. intros _. split; [apply in_or_app; right; now left|eauto].
    + intros H. destruct (P4 k' H). split; [apply in_or_app; now left|assumption].
Qed.
Lemma compare_inv b mods out : compare def req = Ok (b, mods, out) ->
  (b = true <-> forall k, In k (map fst req) -> exists h, compatk k h /\ host_container (p_cont h)) /\
  (forall k h, In k (map fst req) -> compatk k h -> exists l l', get k req = Some l /\ get k out = Some l' /\ Forall2 (fun v v' => matched h v v' /\ acted h v v') l l') /\
  (forall x, In x mods <-> exists k h, In k (map fst req) /\ compatk k h /\ In x (flat_map item_modules (split_on " " (p_cont h)))) /\
  (forall k, get k out <> None -> In k (map fst req)) /\ NoDup mods.
Proof.
  intros E. unfold compare in E. destruct (fold_res _ _ _) as [st|] eqn:F; [|discriminate]. cbn [bind] in E. injection E as <- <- <-.
  assert (F0 : Pst st ([] ++ sorted (map fst req))).
  { refine (fold_res_inv _ Pst _ _ [] _ _ _ F).
    - split; [split; [intros _ k []|reflexivity]|]. split; [intros k h []|]. split; [|intros k H; now destruct (H eq_refl)].
      intros x. cbn. split; [tauto|intros (k & h & [] & _)].
    - intros a d x a' P I. apply compare_one_inv; [exact P|]. exact (proj1 (in_sorted _ _) I). }
  clear F. rename F0 into F. destruct F as (P1 & P2 & P3 & P4). cbn [app] in *.
    assert (Q : forall k, In k (sorted (map fst req)) <-> In k (map fst req)) by (intros; apply in_sorted).
    split; [|split; [|split; [|split]]].
  - rewrite P1. split; intros H k I; apply H, Q, I.
  - intros k h I. apply P2, Q, I.
  - intros x. rewrite in_sorted, in_dedup, P3. split; intros (k & h & I & J); exists k, h; (split; [apply Q, I|exact J]).
  - intros k H. apply Q. now apply P4.
  - eapply Permutation_NoDup; [symmetry; apply sorted_perm|apply nodup_dedup].
Qed.
End Compare.
