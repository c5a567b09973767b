(* XmlProofs.v: lemmas about XmlModel.v *)
From Coq Require Import Lia.
From Verif Require Import PyStr Regex XmlModel XmlSpec CheckProofs.
Open Scope nat_scope.
Open Scope list_scope.

(* ---- the longest match ---- *)
Lemma longest_some r : forall s p, longest r s = Some p ->
  in_re r p /\ (exists q, s = p ++ q) /\ forall p' q', s = p' ++ q' -> in_re r p' -> length p' <= length p.
Proof.
  intros s. revert r. induction s as [|c s IH]; intros r p H; cbn [longest] in H.
  - destruct (nullable r) eqn:N; [|discriminate]. injection H as <-. repeat split.
    + now apply nullable_spec.
    + exists []. reflexivity.
    + intros p' q' E _. symmetry in E. apply app_eq_nil in E as [-> _]. auto.
  - destruct (longest (deriv c r) s) as [p0|] eqn:E.
    + injection H as <-. destruct (IH _ _ E) as (A & (q & ->) & C). repeat split.
      * now apply deriv_spec.
      * exists q. reflexivity.
      * intros [|c' p'] q' E' I; cbn; [lia|]. injection E' as <- E'. apply le_n_S. eapply C; eauto. now apply deriv_spec.
    + destruct (nullable r) eqn:N; [|discriminate]. injection H as <-. repeat split.
      * now apply nullable_spec.
      * exists (c :: s). reflexivity.
      * intros [|c' p'] q' E' I; cbn; [lia|]. exfalso. injection E' as <- E'.
        assert (X : forall s r p q, s = p ++ q -> in_re r p -> longest r s <> None).
        { clear. induction s as [|c s IH]; intros r p q E I.
          - symmetry in E. apply app_eq_nil in E as [-> _]. cbn. now rewrite (proj2 (nullable_spec r) I).
          - cbn. destruct p as [|c' p].
            + destruct (longest (deriv c r) s); [discriminate|]. now rewrite (proj2 (nullable_spec r) I).
            + injection E as <- E. destruct (longest (deriv c r) s) eqn:F; [discriminate|].
              exfalso. eapply (IH (deriv c r) p q); eauto. now apply deriv_spec. }
        eapply (X s (deriv c r) p' q'); eauto. now apply deriv_spec.
Qed.
Lemma longest_none r s : longest r s = None -> forall p q, s = p ++ q -> ~ in_re r p.
Proof.
  revert r. induction s as [|c s IH]; intros r H p q E I.
  - symmetry in E. apply app_eq_nil in E as [-> _]. cbn in H. rewrite (proj2 (nullable_spec r) I) in H. discriminate.
  - cbn in H. destruct (longest (deriv c r) s) eqn:F; [discriminate|].
    destruct p as [|c' p].
    + rewrite (proj2 (nullable_spec r) I) in H. discriminate.
    + injection E as <- E. eapply (IH (deriv c r) F p q); eauto. now apply deriv_spec.
Qed.
(* if every matching prefix is p and p matches then the longest match is p *)
Lemma longest_is r s p : in_re r p -> (exists q, s = p ++ q) ->
  (forall p' q', s = p' ++ q' -> in_re r p' -> p' = p) -> longest r s = Some p.
Proof.
  intros I [q E] U. destruct (longest r s) as [p0|] eqn:F.
  - apply longest_some in F as (A & (q0 & B) & _). f_equal. eapply U; eauto.
  - exfalso. eapply longest_none; eauto.
Qed.
Lemma longest_no r s : (forall p q, s = p ++ q -> ~ in_re r p) -> longest r s = None.
Proof.
  intros U. destruct (longest r s) as [p0|] eqn:F; auto.
  apply longest_some in F as (A & (q0 & B) & _). exfalso. eapply U; eauto.
Qed.

(* ---- what the three patterns match ---- *)
Lemma forallb_In {A} (f : A -> bool) l : forallb f l = true <-> forall x, In x l -> f x = true.
Proof. apply forallb_forall. Qed.
Lemma no_slash_t c : no_slash c = true <-> c <> "/"%char.
Proof. unfold no_slash. rewrite negb_true_iff, Ascii.eqb_neq. tauto. Qed.
Lemma no_angle_t c : no_angle c = true <-> c <> "<"%char /\ c <> ">"%char.
Proof. unfold no_angle. rewrite andb_true_iff, !negb_true_iff, !Ascii.eqb_neq. tauto. Qed.
Lemma in_beg p : in_re beg_tag_re p <->
  exists c m d, p = "<"%char :: c :: m ++ [d; ">"%char] /\ c <> "/"%char /\ d <> "/"%char /\
                forall x, In x m -> x <> "<"%char /\ x <> ">"%char.
Proof.
  unfold beg_tag_re. split.
  - intros H. apply in_cat in H as (x1 & y1 & -> & H1 & H). apply in_ch in H1 as ->.
    apply in_cat in H as (x2 & y2 & -> & H2 & H). apply in_cls in H2 as (c & -> & H2).
    apply in_cat in H as (m & y3 & -> & H3 & H). apply in_star_cls in H3.
    apply in_cat in H as (x4 & y4 & -> & H4 & H). apply in_cls in H4 as (d & -> & H4). apply in_ch in H as ->.
    exists c, m, d. repeat split; try (now apply no_slash_t).
    + eapply forallb_In in H3; eauto. now apply no_angle_t in H3.
    + eapply forallb_In in H3; eauto. now apply no_angle_t in H3.
  - intros (c & m & d & -> & C & D & M).
    change ("<"%char :: c :: m ++ [d; ">"%char]) with (["<"%char] ++ [c] ++ m ++ [d] ++ [">"%char]).
    apply in_cat. exists ["<"%char], ([c] ++ m ++ [d] ++ [">"%char]). split; auto. split; [now apply in_ch|].
    apply in_cat. exists [c], (m ++ [d] ++ [">"%char]). split; auto. split; [apply in_cls; exists c; split; auto; now apply no_slash_t|].
    apply in_cat. exists m, ([d] ++ [">"%char]). split; auto. split; [apply in_star_cls, forallb_In; intros x I; now apply no_angle_t, M|].
    apply in_cat. exists [d], [">"%char]. split; auto. split; [apply in_cls; exists d; split; auto; now apply no_slash_t|now apply in_ch].
Qed.
Definition body_ok (x : ascii) : Prop := x <> "<"%char /\ x <> ">"%char /\ x <> "/"%char.
Lemma body_ok_t x : no_angle x && no_slash x = true <-> body_ok x.
Proof. unfold body_ok. rewrite andb_true_iff, no_slash_t, no_angle_t. tauto. Qed.
Lemma in_end p : in_re end_tag_re p <->
  exists m, p = "<"%char :: "/"%char :: m ++ [">"%char] /\ m <> [] /\ forall x, In x m -> body_ok x.
Proof.
  unfold end_tag_re. split.
  - intros H. apply in_cat in H as (x1 & y1 & -> & H1 & H). apply in_ch in H1 as ->.
    apply in_cat in H as (x2 & y2 & -> & H2 & H). apply in_ch in H2 as ->.
    apply in_cat in H as (m & y3 & -> & H3 & H). apply in_plus_cls in H3 as [N H3]. apply in_ch in H as ->.
    exists m. repeat split; auto; eapply forallb_In in H3; eauto; apply body_ok_t in H3; apply H3.
  - intros (m & -> & N & M).
    change ("<"%char :: "/"%char :: m ++ [">"%char]) with (["<"%char] ++ ["/"%char] ++ m ++ [">"%char]).
    apply in_cat. eexists _, _. split; [reflexivity|]. split; [now apply in_ch|].
    apply in_cat. eexists _, _. split; [reflexivity|]. split; [now apply in_ch|].
    apply in_cat. eexists _, _. split; [reflexivity|]. split; [|now apply in_ch].
    apply in_plus_cls. split; auto. apply forallb_In. intros x I. now apply body_ok_t, M.
Qed.
Lemma in_simple p : in_re simple_tag_re p <->
  exists c m, p = "<"%char :: c :: m ++ ["/"%char; ">"%char] /\ c <> "/"%char /\ m <> [] /\ forall x, In x m -> body_ok x.
Proof.
  unfold simple_tag_re. split.
  - intros H. apply in_cat in H as (x1 & y1 & -> & H1 & H). apply in_ch in H1 as ->.
    apply in_cat in H as (x2 & y2 & -> & H2 & H). apply in_cls in H2 as (c & -> & H2).
    apply in_cat in H as (m & y3 & -> & H3 & H). apply in_plus_cls in H3 as [N H3].
    apply in_cat in H as (x4 & y4 & -> & H4 & H). apply in_ch in H4 as ->. apply in_ch in H as ->.
    exists c, m. split; auto. split; [now apply no_slash_t|]. split; auto.
    intros x I. eapply forallb_In in H3; eauto. now apply body_ok_t.
  - intros (c & m & -> & C & N & M).
    change ("<"%char :: c :: m ++ ["/"%char; ">"%char]) with (["<"%char] ++ [c] ++ m ++ ["/"%char] ++ [">"%char]).
    apply in_cat. eexists _, _. split; [reflexivity|]. split; [now apply in_ch|].
    apply in_cat. eexists _, _. split; [reflexivity|]. split; [apply in_cls; exists c; split; auto; now apply no_slash_t|].
    apply in_cat. eexists _, _. split; [reflexivity|].
    split; [apply in_plus_cls; split; auto; apply forallb_In; intros x I; now apply body_ok_t, M|].
    apply in_cat. eexists _, _. split; [reflexivity|]. split; now apply in_ch.
Qed.

(* where the first closing bracket is *)
Lemma gt_split (m x q rest : str) d :
  (forall c, In c m -> c <> ">"%char) -> (forall c, In c x -> c <> ">"%char) ->
  m ++ d :: ">"%char :: q = x ++ ">"%char :: rest ->
  (x = m ++ [d] /\ rest = q) \/ (x = m /\ d = ">"%char /\ rest = ">"%char :: q).
Proof.
  revert x. induction m as [|a m IH]; intros x M X E; cbn in E.
  - destruct x as [|b x]; cbn in E.
    + injection E as -> <-. right. auto.
    + injection E as <- E. destruct x as [|b x]; cbn in E.
      * injection E as <-. left. auto.
      * injection E as E1 _. exfalso. apply (X b); [right; left; auto|now symmetry].
  - destruct x as [|b x]; cbn in E.
    + injection E as E1 _. exfalso. apply (M a); [left; auto|auto].
    + injection E as <- E. destruct (IH x) as [[-> ->]|(-> & -> & ->)]; auto.
      * intros c I. apply M. now right.
      * intros c I. apply X. now right.
Qed.
Lemma gt_first (m x q rest : str) :
  (forall c, In c m -> c <> ">"%char) -> (forall c, In c x -> c <> ">"%char) ->
  m ++ ">"%char :: q = x ++ ">"%char :: rest -> x = m /\ rest = q.
Proof.
  revert x. induction m as [|a m IH]; intros [|b x] M X E; cbn in E.
  - injection E as <-. auto.
  - injection E as E1 _. exfalso. apply (X b); [now left|now symmetry].
  - injection E as E1 _. exfalso. apply (M a); [now left|auto].
  - injection E as <- E. destruct (IH x) as [-> ->]; auto; intros c I; [apply M|apply X]; now right.
Qed.

(* a head: the text between "<" and ">" *)
Definition head_ok (h : str) : Prop :=
  h <> [] /\ (forall c, In c h -> c <> "<"%char /\ c <> ">"%char) /\ hd " "%char h <> "/"%char /\ last h " "%char <> "/"%char.
Lemma beg_yes (h rest : str) : head_ok h -> 2 <= length h -> hd " "%char rest <> ">"%char ->
  longest beg_tag_re ("<"%char :: h ++ ">"%char :: rest) = Some ("<"%char :: h ++ [">"%char]).
Proof.
  intros (N & A & H & T) Ln R. destruct h as [|c h]; [now destruct N|].
  destruct h as [|e h']; [cbn in Ln; lia|].
  destruct (exists_last (l := e :: h')) as (m & d & E); [discriminate|]. rewrite E in *.
  assert (D : d <> "/"%char).
  { intros ->. apply T. rewrite app_comm_cons. now rewrite last_last. }
  apply longest_is.
  - apply in_beg. exists c, m, d. repeat split; auto.
    + cbn. now rewrite <- app_assoc.
    + apply A. right. apply in_or_app. now left.
    + apply A. right. apply in_or_app. now left.
  - exists rest. cbn. rewrite <- !app_assoc. reflexivity.
  - intros p' q' E' I. apply in_beg in I as (c' & m' & d' & -> & C' & D' & M').
    cbn in E'. injection E' as <- E'. rewrite <- !app_assoc in E'. cbn in E'.
    destruct (gt_split m' (m ++ [d]) q' rest d') as [[E1 E2]|(E1 & E2 & E3)].
    + intros x I. now apply M'.
    + intros x I. apply A. now right.
    + rewrite <- app_assoc. symmetry. apply E'.
    + cbn. rewrite E1. rewrite <- app_assoc. reflexivity.
    + rewrite E3 in R. now cbn in R.
Qed.
(* the head ends with a slash: an empty element *)
Lemma beg_no (h rest : str) : h <> [] -> (forall c, In c h -> c <> "<"%char /\ c <> ">"%char) -> hd " "%char rest <> ">"%char ->
  (last h " "%char = "/"%char \/ length h = 1) ->
  longest beg_tag_re ("<"%char :: h ++ ">"%char :: rest) = None.
Proof.
  intros N A R T. apply longest_no. intros p q E I. apply in_beg in I as (c' & m' & d' & -> & C' & D' & M').
  destruct h as [|c h]; [now destruct N|]. cbn in E. injection E as <- E. rewrite <- app_assoc in E. cbn in E.
  destruct (gt_split m' h q rest d') as [[E1 E2]|(E1 & E2 & E3)].
  - intros x I. now apply M'.
  - intros x I. apply A. now right.
  - now symmetry.
  - subst h. destruct T as [T|T].
    + rewrite app_comm_cons, last_last in T. auto.
    + cbn in T. rewrite app_length in T. cbn in T. lia.
  - rewrite E3 in R. now cbn in R.
Qed.
Lemma beg_end_no (s : str) : longest beg_tag_re ("<"%char :: "/"%char :: s) = None.
Proof.
  apply longest_no. intros p q E I. apply in_beg in I as (c' & m' & d' & -> & C' & D' & M').
  cbn in E. injection E as <- E. now apply C'.
Qed.
Lemma end_yes (h rest : str) : h <> [] -> (forall c, In c h -> body_ok c) ->
  longest end_tag_re ("<"%char :: "/"%char :: h ++ ">"%char :: rest) = Some ("<"%char :: "/"%char :: h ++ [">"%char]).
Proof.
  intros N A. apply longest_is.
  - apply in_end. exists h. auto.
  - exists rest. cbn. now rewrite <- app_assoc.
  - intros p' q' E I. apply in_end in I as (m & -> & N' & M). cbn in E. injection E as E.
    rewrite <- app_assoc in E. cbn in E. destruct (gt_first m h q' rest) as [-> _]; auto.
    + intros c I. now apply M.
    + intros c I. now apply A.
Qed.
Lemma end_no (c : ascii) (s : str) : c <> "/"%char -> longest end_tag_re ("<"%char :: c :: s) = None.
Proof.
  intros C. apply longest_no. intros p q E I. apply in_end in I as (m & -> & N & M).
  cbn in E. injection E as E _. auto.
Qed.
Lemma simple_yes (h rest : str) : 2 <= length h -> (forall c, In c h -> body_ok c) ->
  longest simple_tag_re ("<"%char :: h ++ "/"%char :: ">"%char :: rest) = Some ("<"%char :: h ++ L "/>").
Proof.
  intros N A. destruct h as [|c h]; [cbn in N; lia|].
  assert (Nh : h <> []) by (intros ->; cbn in N; lia). apply longest_is.
  - apply in_simple. exists c, h. repeat split; auto; try (apply A; now right). apply (A c); now left.
  - exists rest. cbn. now rewrite <- app_assoc.
  - intros p' q' E I. apply in_simple in I as (c' & m & -> & C & N' & M). cbn in E. injection E as <- E.
    rewrite <- app_assoc in E. cbn in E. 
    destruct (gt_split m (h ++ ["/"%char]) q' rest "/"%char) as [[E1 E2]|(E1 & E2 & E3)]; try discriminate.
    + intros x I. now apply M.
    + intros x I. apply in_app_or in I as [I|[<-|[]]]; [apply A; now right|discriminate].
    + rewrite <- app_assoc. now symmetry.
    + apply app_inj_tail in E1 as [-> _]. reflexivity.
Qed.
Lemma simple_no1 (c : ascii) (rest : str) :
  longest simple_tag_re ("<"%char :: c :: ">"%char :: rest) = None.
Proof.
  apply longest_no. intros p q E I. apply in_simple in I as (c' & m & -> & C & N & M).
  destruct m as [|d m]; [now destruct N|]. cbn in E. injection E as <- <- E. destruct (M ">"%char) as (_ & X & _); [now left|auto].
Qed.
Lemma simple_no2 (c : ascii) (h rest : str) : (forall x, In x h -> x <> ">"%char) -> In "/"%char h ->
  longest simple_tag_re ("<"%char :: c :: h ++ "/"%char :: ">"%char :: rest) = None.
Proof.
  intros A S. apply longest_no. intros p q E I. apply in_simple in I as (c' & m & -> & C & N & M).
  cbn in E. injection E as <- E. rewrite <- app_assoc in E. cbn in E.
  destruct (gt_split m (h ++ ["/"%char]) q rest "/"%char) as [[E1 E2]|(E1 & E2 & E3)]; try discriminate.
  - intros x I. now apply M.
  - intros x I. apply in_app_or in I as [I|[<-|[]]]; [now apply A|discriminate].
  - rewrite <- app_assoc. now symmetry.
  - apply app_inj_tail in E1 as [-> _]. destruct (M _ S) as (_ & _ & X). auto.
Qed.
Lemma text_no r (c : ascii) (s : str) : In r [beg_tag_re; end_tag_re; simple_tag_re] -> c <> "<"%char ->
  longest r (c :: s) = None.
Proof.
  intros R C. apply longest_no. intros p q E I.
  assert (X : exists t, p = "<"%char :: t).
  { destruct R as [<-|[<-|[<-|[]]]]; [apply in_beg in I as (? & ? & ? & -> & _)|apply in_end in I as (? & -> & _)|apply in_simple in I as (? & ? & -> & _)]; eauto. }
  destruct X as [t ->]. cbn in E. injection E as E _. auto.
Qed.

(* ---- the loop, without counting ---- *)
Lemma skipn_le {A} n (l : list A) : length (skipn n l) <= length l.
Proof. rewrite skipn_length. lia. Qed.
Lemma longest_pos r s m : In r [beg_tag_re; end_tag_re; simple_tag_re] -> longest r s = Some m -> 1 <= length m.
Proof.
  intros R E. apply longest_some in E as (I & _).
  destruct R as [<-|[<-|[<-|[]]]]; [apply in_beg in I as (? & ? & ? & -> & _)|apply in_end in I as (? & -> & _)|apply in_simple in I as (? & ? & -> & _)]; cbn; lia.
Qed.
Lemma pretty_fuel : forall k k' s i l, length s <= k -> length s <= k' -> pretty k s i l = pretty k' s i l.
Proof.
  induction k as [|k IH]; intros k' s i l A B.
  - destruct s; [|cbn in A; lia]. destruct k'; reflexivity.
  - destruct s as [|c s]; [destruct k'; reflexivity|]. destruct k' as [|k']; [cbn in B; lia|].
    cbn [pretty].
    assert (X : forall n i l, 1 <= n -> pretty k (skipn n (c :: s)) i l = pretty k' (skipn n (c :: s)) i l).
    { intros n i' l' P. apply IH; destruct n as [|n]; try lia; cbn [skipn]; pose proof (skipn_le n s); cbn in *; lia. }
    destruct (longest beg_tag_re (c :: s)) as [m|] eqn:E1.
    + apply longest_pos in E1; [|cbn; auto]. specialize (X (length m) (S i) false E1).
      destruct (skipn (length m) (c :: s)) eqn:F; auto. now rewrite X.
    + destruct (longest end_tag_re (c :: s)) as [m|] eqn:E2.
      * apply longest_pos in E2; [|cbn; auto]. now rewrite X.
      * destruct (longest simple_tag_re (c :: s)) as [m|] eqn:E3.
        -- apply longest_pos in E3; [|cbn; auto]. now rewrite X.
        -- destruct (takewhile _ (c :: s)) eqn:F; auto. rewrite X; auto. cbn; lia.
Qed.
Definition P (s : str) (i : nat) (l : bool) : res str := pretty (length s) s i l.
Lemma P_unfold c s i l : P (c :: s) i l =
  match longest beg_tag_re (c :: s) with
  | Some m =>
      match skipn (length m) (c :: s) with
      | [] => Raise "IndexError"%string
      | (d :: _) as rest => pre (ind i ++ m ++ (if Ascii.eqb d "<" then [nl] else [])) (P rest (S i) false)
      end
  | None =>
      match longest end_tag_re (c :: s) with
      | Some m => pre ((if l then [] else ind (pred i)) ++ m ++ [nl]) (P (skipn (length m) (c :: s)) (pred i) false)
      | None =>
          match longest simple_tag_re (c :: s) with
          | Some m => pre (ind i ++ m ++ [nl]) (P (skipn (length m) (c :: s)) i false)
          | None =>
              match takewhile (fun c => negb (Ascii.eqb c "<")) (c :: s) with
              | [] => Raise "XMLToolsInternalError"%string
              | t => pre (strip t) (P (skipn (length t) (c :: s)) i true)
              end
          end
      end
  end.
Proof.
  unfold P at 1. cbn [length pretty].
  assert (X : forall n i l, 1 <= n -> pretty (length s) (skipn n (c :: s)) i l = P (skipn n (c :: s)) i l).
  { intros n i' l' Q. apply pretty_fuel; auto. destruct n as [|n]; try lia. cbn [skipn]. apply skipn_le. }
  destruct (longest beg_tag_re (c :: s)) as [m|] eqn:E1.
  - apply longest_pos in E1; [|cbn; auto]. specialize (X (length m) (S i) false E1).
    destruct (skipn (length m) (c :: s)) eqn:F; auto. now rewrite X.
  - destruct (longest end_tag_re (c :: s)) as [m|] eqn:E2.
    + apply longest_pos in E2; [|cbn; auto]. now rewrite X.
    + destruct (longest simple_tag_re (c :: s)) as [m|] eqn:E3.
      * apply longest_pos in E3; [|cbn; auto]. now rewrite X.
      * destruct (takewhile _ (c :: s)) eqn:F; auto. rewrite X; auto. cbn; lia.
Qed.
Lemma skipn_app0 {A} (a b : list A) : skipn (length a) (a ++ b) = b.
Proof. induction a; cbn; auto. Qed.
Lemma pre_pre a b r : pre a (pre b r) = pre (a ++ b) r.
Proof. unfold pre. destruct r; cbn; auto. now rewrite app_assoc. Qed.
Lemma pre_raise a m : pre a (Raise m) = Raise m. Proof. reflexivity. Qed.

Lemma P_open (h : str) (c : ascii) (rest : str) i l : head_ok h -> 2 <= length h -> c <> ">"%char ->
  P ("<"%char :: h ++ ">"%char :: c :: rest) i l =
  pre (ind i ++ L "<" ++ h ++ L ">" ++ (if Ascii.eqb c "<" then [nl] else [])) (P (c :: rest) (S i) false).
Proof.
  intros H N C. rewrite P_unfold, (beg_yes h (c :: rest)); auto.
  replace ("<"%char :: h ++ ">"%char :: c :: rest) with (("<"%char :: h ++ [">"%char]) ++ c :: rest) by (cbn; now rewrite <- app_assoc).
  rewrite skipn_app0. cbn. rewrite <- !app_assoc. reflexivity.
Qed.
Lemma P_open_bad (a c : ascii) (rest : str) i l : body_ok a -> c <> ">"%char ->
  P ("<"%char :: a :: ">"%char :: c :: rest) i l = Raise "XMLToolsInternalError"%string.
Proof.
  intros A C. rewrite P_unfold.
  pose proof (beg_no [a] (c :: rest)) as B. cbn [app] in B. rewrite B; auto; [|discriminate|intros x [<-|[]]; split; apply A].
  rewrite end_no by apply A. rewrite simple_no1. reflexivity.
Qed.
Lemma P_close (t rest : str) i l : t <> [] -> (forall c, In c t -> body_ok c) ->
  P (L "</" ++ t ++ L ">" ++ rest) i l = pre ((if l then [] else ind (pred i)) ++ L "</" ++ t ++ L ">" ++ [nl]) (P rest (pred i) false).
Proof.
  intros N A. change (L "</" ++ t ++ L ">" ++ rest) with ("<"%char :: "/"%char :: t ++ ">"%char :: rest).
  rewrite P_unfold, beg_end_no, end_yes; auto.
  replace ("<"%char :: "/"%char :: t ++ ">"%char :: rest) with (("<"%char :: "/"%char :: t ++ [">"%char]) ++ rest) by (cbn; now rewrite <- app_assoc).
  rewrite skipn_app0. cbn. rewrite <- !app_assoc. reflexivity.
Qed.
Lemma P_simple (h rest : str) i l : h <> [] -> (forall c, In c h -> body_ok c) -> hd " "%char rest <> ">"%char ->
  P (L "<" ++ h ++ L " />" ++ rest) i l = pre (ind i ++ L "<" ++ h ++ L " />" ++ [nl]) (P rest i false).
Proof.
  intros N A R. 
  assert (E1 : L "<" ++ h ++ L " />" ++ rest = "<"%char :: (h ++ L " /") ++ ">"%char :: rest) by (cbn; now rewrite <- app_assoc).
  assert (E2 : L "<" ++ h ++ L " />" ++ rest = "<"%char :: (h ++ L " ") ++ "/"%char :: ">"%char :: rest) by (cbn; now rewrite <- app_assoc).
  destruct (L "<" ++ h ++ L " />" ++ rest) as [|x y] eqn:E0; [discriminate|]. rewrite P_unfold. rewrite E1 at 1.
  rewrite beg_no; auto.
  - rewrite E2. destruct h as [|c h]; [now destruct N|]. cbn [app]. rewrite end_no by (apply A; now left).
    change (c :: h ++ L " ") with ((c :: h) ++ L " ") in *.
    pose proof (simple_yes ((c :: h) ++ L " ") rest) as S. cbn [app] in S. rewrite S.
    + replace ("<"%char :: c :: (h ++ L " ") ++ "/"%char :: ">"%char :: rest) with (("<"%char :: c :: (h ++ L " ") ++ L "/>") ++ rest) by (cbn; now rewrite <- app_assoc).
      rewrite skipn_app0. f_equal. cbn. f_equal. f_equal. f_equal. rewrite <- !app_assoc. reflexivity.
    + cbn. rewrite app_length. cbn. lia.
    + intros d [<-|I]; [apply A; now left|]. apply in_app_or in I as [I|[<-|[]]]; [apply A; now right|]. repeat split; discriminate.
  - destruct h; discriminate.
  - intros c I. apply in_app_or in I as [I|[<-|[<-|[]]]]; try (split; discriminate). split; now apply A.
  - left. change (L " /") with ([" "%char] ++ ["/"%char]). rewrite app_assoc. apply last_last.
Qed.
Lemma P_simple_bad (c : ascii) (h rest : str) i l : body_ok c -> (forall c, In c h -> c <> "<"%char /\ c <> ">"%char) ->
  In "/"%char h -> hd " "%char rest <> ">"%char ->
  P (L "<" ++ (c :: h) ++ L " />" ++ rest) i l = Raise "XMLToolsInternalError"%string.
Proof.
  intros C A S R.
  assert (E1 : L "<" ++ (c :: h) ++ L " />" ++ rest = "<"%char :: (c :: h ++ L " /") ++ ">"%char :: rest) by (cbn; now rewrite <- app_assoc).
  assert (E2 : L "<" ++ (c :: h) ++ L " />" ++ rest = "<"%char :: c :: (h ++ L " ") ++ "/"%char :: ">"%char :: rest) by (cbn; now rewrite <- app_assoc).
  destruct (L "<" ++ (c :: h) ++ L " />" ++ rest) as [|x y] eqn:E0; [discriminate|]. rewrite P_unfold. rewrite E1 at 1.
  rewrite beg_no; auto.
  - rewrite E2. rewrite end_no by apply C. rewrite simple_no2; auto.
    + intros x0 I. apply in_app_or in I as [I|[<-|[]]]; [now apply A|discriminate].
    + apply in_or_app. now left.
  - discriminate.
  - intros d [<-|I]; [split; apply C|]. apply in_app_or in I as [I|[<-|[<-|[]]]]; try (split; discriminate). now apply A.
  - left. change (c :: h ++ L " /") with ((c :: h) ++ [" "%char] ++ ["/"%char]). rewrite app_assoc. apply last_last.
Qed.
Lemma take_lt (t : str) (rest : str) : (forall c, In c t -> c <> "<"%char) -> hd "<"%char rest = "<"%char ->
  takewhile (fun c => negb (Ascii.eqb c "<")) (t ++ rest) = t.
Proof.
  intros A R. induction t as [|c t IH]; cbn [app takewhile].
  - destruct rest as [|d r]; auto. cbn in R. subst d. reflexivity.
  - rewrite (proj2 (Ascii.eqb_neq c "<")) by (apply A; now left). cbn [negb]. f_equal. apply IH. intros d I. apply A. now right.
Qed.
Lemma P_text (t rest : str) i l : t <> [] -> (forall c, In c t -> c <> "<"%char) -> hd "<"%char rest = "<"%char ->
  P (t ++ rest) i l = pre (strip t) (P rest i true).
Proof.
  intros N A R. destruct t as [|c t]; [now destruct N|]. cbn [app].
  assert (C : c <> "<"%char) by (apply A; now left).
  rewrite P_unfold, !text_no; cbn [In]; auto.
  change (c :: t ++ rest) with ((c :: t) ++ rest). rewrite take_lt; auto. now rewrite skipn_app0.
Qed.

(* ---- trees ---- *)
Lemma elem_ind' (Q : elem -> Prop) :
  (forall tag attrs text kids, Forall Q kids -> Q (Elem tag attrs text kids)) -> forall e, Q e.
Proof.
  intros H. fix IH 1. intros [tag attrs text kids]. apply H.
  induction kids as [|k ks IHk]; constructor; [apply IH|apply IHk].
Qed.
Lemma xml_tree_inv tag attrs text kids : xml_tree (Elem tag attrs text kids) ->
  (xml_name tag /\ (forall k v, In (k, v) attrs -> xml_name k /\ (forall c, In c v -> xml_char c \/ c = cr)) /\
   (forall c, In c text -> xml_char c)) /\ Forall xml_tree kids.
Proof.
  intros H. split.
  - apply (H tag attrs text kids). constructor.
  - apply Forall_forall. intros k I t a x ks W. apply (H t a x ks). now apply (within_kid _ tag attrs text kids k).
Qed.
Lemma printable_inv tag attrs text kids : printable (Elem tag attrs text kids) <->
  ((text = [] /\ kids = [] -> forall k v, In (k, v) attrs -> ~ In "/"%char v) /\
   (text <> [] \/ kids <> [] -> attrs <> [] \/ 2 <= length tag)) /\ Forall printable kids.
Proof.
  split.
  - intros H. split.
    + apply (H tag attrs text kids). constructor.
    + apply Forall_forall. intros k I t a x ks W. apply (H t a x ks). now apply (within_kid _ tag attrs text kids k).
  - intros [A B] t a x ks W. inversion W as [E|tag' attrs' text' kids' k I W' E]; subst.
    + exact A.
    + rewrite Forall_forall in B. now apply (B k I).
Qed.

(* the layout the loop produces *)
Fixpoint render (i : nat) (e : elem) : str :=
  match e with
  | Elem tag attrs text kids =>
      match text, kids with
      | [], [] => ind i ++ L "<" ++ head_text tag attrs ++ L " />" ++ [nl]
      | _, _ =>
          ind i ++ L "<" ++ head_text tag attrs ++ L ">" ++
          (match text with [] => [nl] | _ => strip (flat_map esc_text_c text) end) ++
          flat_map (render (S i)) kids ++
          (match kids with [] => [] | _ => ind i end) ++ L "</" ++ tag ++ L ">" ++ [nl]
      end
  end.
Definition has_slash (attrs : list (str * str)) : bool :=
  existsb (fun a => existsb (fun c => Ascii.eqb c "/") (snd a)) attrs.
Fixpoint good (e : elem) : bool :=
  match e with
  | Elem tag attrs text kids =>
      match text, kids with
      | [], [] => negb (has_slash attrs)
      | _, _ => (match attrs with [] => Nat.leb 2 (length tag) | _ => true end) && forallb good kids
      end
  end.
Lemma has_slash_t attrs : has_slash attrs = true <-> exists k v, In (k, v) attrs /\ In "/"%char v.
Proof.
  unfold has_slash. rewrite existsb_exists. split.
  - intros ([k v] & I & H). cbn in H. apply existsb_exists in H as (c & J & H). apply Ascii.eqb_eq in H as ->. eauto.
  - intros (k & v & I & J). exists (k, v). split; auto. apply existsb_exists. exists "/"%char. split; auto.
Qed.
Lemma good_t e : good e = true <-> printable e.
Proof.
  induction e as [tag attrs text kids IH] using elem_ind'. rewrite printable_inv.
  assert (K : forallb good kids = true <-> Forall printable kids).
  { rewrite forallb_forall, Forall_forall. rewrite Forall_forall in IH. split; intros H x I; now apply IH, H. }
  assert (Gen : text <> [] \/ kids <> [] -> good (Elem tag attrs text kids) =
                (match attrs with [] => Nat.leb 2 (length tag) | _ => true end) && forallb good kids).
  { intros [N|N]; cbn [good]; destruct text, kids; auto; now destruct N. }
  assert (D : (text = [] /\ kids = []) \/ (text <> [] \/ kids <> [])).
  { destruct text; [destruct kids; [left; auto|right; right; discriminate]|right; left; discriminate]. }
  destruct D as [[-> ->]|D].
  - cbn [good]. rewrite negb_true_iff. split.
    + intros H. split; [|constructor]. split; [|intros [[]|[]]; reflexivity].
      intros _ k v I J. assert (X : has_slash attrs = true) by (apply has_slash_t; eauto). congruence.
    + intros [[H _] _]. apply not_true_iff_false. intros X. apply has_slash_t in X as (k & v & I & J). eapply H; eauto.
  - rewrite Gen, andb_true_iff, K; auto. split.
    + intros [A B]. split; auto. split.
      * intros [-> ->]. destruct D as [[]|[]]; reflexivity.
      * intros _. destruct attrs; [right; now apply Nat.leb_le|left; discriminate].
    + intros [[_ A] B]. split; auto. destruct (A D) as [N|N]; destruct attrs; auto; try (now destruct N). now apply Nat.leb_le.
Qed.

(* ---- characters ---- *)
Lemma word_ok c : is_word c = true -> body_ok c /\ is_space c = false.
Proof.
  intros H. destruct c as [b0 b1 b2 b3 b4 b5 b6 b7].
  destruct b0, b1, b2, b3, b4, b5, b6, b7; try (vm_compute in H; discriminate); repeat split; try discriminate; vm_compute; reflexivity.
Qed.
Lemma name_ok s c : xml_name s -> In c s -> body_ok c.
Proof. intros [_ H] I. now apply word_ok, H. Qed.
Lemma esc_attr_body v c : In c (flat_map esc_attr_c v) -> c <> "<"%char /\ c <> ">"%char.
Proof.
  intros I. apply in_flat_map in I as (d & J & I). unfold esc_attr_c in I.
  repeat match type of I with In _ (if Ascii.eqb ?a ?b then _ else _) => destruct (Ascii.eqb_spec a b) end;
    cbn in I; repeat (destruct I as [I|I]; [subst; split; try discriminate; auto|]); destruct I.
Qed.
Lemma esc_attr_slash v : In "/"%char (flat_map esc_attr_c v) <-> In "/"%char v.
Proof.
  rewrite in_flat_map. split.
  - intros (d & J & I). unfold esc_attr_c in I.
    repeat match type of I with In _ (if Ascii.eqb ?a ?b then _ else _) => destruct (Ascii.eqb_spec a b) end;
    cbn in I; repeat (destruct I as [I|I]; [try discriminate I; subst; auto|]); destruct I.
  - intros I. exists "/"%char. split; auto. cbn. auto.
Qed.
Lemma esc_text_body v c : In c (flat_map esc_text_c v) -> c <> "<"%char /\ c <> ">"%char.
Proof.
  intros I. apply in_flat_map in I as (d & J & I). unfold esc_text_c in I.
  repeat match type of I with In _ (if Ascii.eqb ?a ?b then _ else _) => destruct (Ascii.eqb_spec a b) end;
    cbn in I; repeat (destruct I as [I|I]; [subst; split; try discriminate; auto|]); destruct I.
Qed.
Lemma esc_text_nil v : flat_map esc_text_c v = [] -> v = [].
Proof.
  destruct v as [|c v]; auto. cbn. intros H. apply app_eq_nil in H as [H _]. unfold esc_text_c in H.
  repeat match type of H with (if Ascii.eqb ?a ?b then _ else _) = _ => destruct (Ascii.eqb_spec a b) end; discriminate.
Qed.
Lemma attr_text_in attrs c : (forall k v, In (k, v) attrs -> xml_name k) -> In c (flat_map attr_text attrs) ->
  c <> "<"%char /\ c <> ">"%char /\ (c = "/"%char -> has_slash attrs = true).
Proof.
  intros H I. apply in_flat_map in I as ([k v] & J & I). unfold attr_text in I. cbn [fst snd] in I.
  assert (X : In c [" "%char; "="%char; dquote] \/ In c k \/ In c (flat_map esc_attr_c v)).
  { destruct I as [I|I]; [left; now left|]. apply in_app_or in I as [I|I]; auto.
    destruct I as [I|[I|I]]; [left; right; now left|left; right; right; now left|].
    apply in_app_or in I as [I|[I|[]]]; auto. left; right; right; now left. }
  destruct X as [X|[X|X]].
  - cbn in X. destruct X as [<-|[<-|[<-|[]]]]; repeat split; try discriminate.
  - pose proof (name_ok k c (H _ _ J) X) as (A & B & C). split; [exact A|]. split; [exact B|]. intros E. now destruct C.
  - destruct (esc_attr_body _ _ X) as [A B]. repeat split; auto. intros ->. apply has_slash_t. exists k, v.
    split; auto. now apply esc_attr_slash.
Qed.
Lemma attr_text_slash attrs : has_slash attrs = true -> In "/"%char (flat_map attr_text attrs).
Proof.
  intros H. apply has_slash_t in H as (k & v & I & J). apply in_flat_map. exists (k, v). split; auto.
  unfold attr_text. cbn [fst snd]. right. apply in_or_app. right. right. right. apply in_or_app. left. now apply esc_attr_slash.
Qed.
Lemma last_attr (attrs : list (str * str)) d : attrs <> [] -> last (flat_map attr_text attrs) d = dquote.
Proof.
  intros N. destruct (exists_last N) as (l & a & ->). rewrite flat_map_app. cbn [flat_map]. rewrite app_nil_r.
  unfold attr_text at 2.
  replace (flat_map attr_text l ++ " "%char :: fst a ++ "="%char :: dquote :: flat_map esc_attr_c (snd a) ++ [dquote])
    with ((flat_map attr_text l ++ " "%char :: fst a ++ "="%char :: dquote :: flat_map esc_attr_c (snd a)) ++ [dquote]).
  - apply last_last.
  - rewrite <- app_assoc. cbn. rewrite <- app_assoc. reflexivity.
Qed.
Lemma last_In {A} (l : list A) d : l <> [] -> In (last l d) l.
Proof. intros N. destruct (exists_last N) as (x & a & ->). rewrite last_last. apply in_or_app. right. now left. Qed.
Lemma last_app_ne {A} (a b : list A) d : b <> [] -> last (a ++ b) d = last b d.
Proof. intros N. destruct (exists_last N) as (x & y & ->). now rewrite app_assoc, !last_last. Qed.
Lemma attr_text_nonempty a l : flat_map attr_text (a :: l) <> [].
Proof. cbn. discriminate. Qed.
Lemma head_text_ok tag attrs : xml_name tag -> (forall k v, In (k, v) attrs -> xml_name k) -> head_ok (head_text tag attrs).
Proof.
  intros T H. unfold head_ok, head_text. destruct T as [N W] eqn:E. clear E. repeat split.
  - destruct tag; [now destruct N|discriminate].
  - apply in_app_or in H0 as [I|I]; [apply (name_ok tag); auto|eapply attr_text_in; eauto].
  - apply in_app_or in H0 as [I|I]; [apply (name_ok tag); auto|eapply attr_text_in; eauto].
  - destruct tag as [|c t]; [now destruct N|]. cbn. apply (name_ok (c :: t)); auto. now left.
  - destruct attrs as [|a l].
    + cbn. rewrite app_nil_r. apply (name_ok tag); auto. now apply last_In.
    + rewrite last_app_ne by apply attr_text_nonempty. rewrite last_attr by discriminate. discriminate.
Qed.

Lemma tostring_lt e : exists s, tostring e = "<"%char :: s.
Proof. destruct e. cbn. eauto. Qed.
Lemma kids_then (kids : list elem) (s : str) : hd "<"%char s = "<"%char -> hd "<"%char (flat_map tostring kids ++ s) = "<"%char.
Proof. destruct kids as [|k ks]; auto. destruct (tostring_lt k) as [x E]. cbn [flat_map]. now rewrite E. Qed.

Lemma pretty_tree e : xml_tree e -> forall rest i l, hd " "%char rest <> ">"%char ->
  P (tostring e ++ rest) i l =
  if good e then pre (render i e) (P rest i false) else Raise "XMLToolsInternalError"%string.
Proof.
  induction e as [tag attrs text kids IH] using elem_ind'. intros W rest i l R.
  apply xml_tree_inv in W as [(Wt & Wa & Wx) Wk].
  assert (Wn : forall k v, In (k, v) attrs -> xml_name k) by (intros k v I; now destruct (Wa k v I)).
  pose proof (head_text_ok tag attrs Wt Wn) as HO.
  assert (D : (text = [] /\ kids = []) \/ (text <> [] \/ kids <> [])).
  { destruct text; [destruct kids; [left; auto|right; right; discriminate]|right; left; discriminate]. }
  destruct D as [[-> ->]|D].
  - cbn [tostring good render].
    replace (("<"%char :: head_text tag attrs ++ L " />") ++ rest) with (L "<" ++ head_text tag attrs ++ L " />" ++ rest)
      by (cbn; now rewrite <- app_assoc).
    destruct (has_slash attrs) eqn:S; cbn [negb].
    + unfold head_text. destruct tag as [|c t]; [now destruct Wt|].
      change ((c :: t) ++ flat_map attr_text attrs) with (c :: (t ++ flat_map attr_text attrs)).
      apply P_simple_bad; auto.
      * apply (name_ok (c :: t)); auto. now left.
      * intros d I. apply in_app_or in I as [I|I]; [apply (name_ok (c :: t)) with (c := d) in Wt; [split; apply Wt|now right]|].
        destruct (attr_text_in _ _ Wn I) as (A & B & _). auto.
      * apply in_or_app. right. now apply attr_text_slash.
    + apply P_simple; auto; [apply HO|]. intros c I. destruct HO as (_ & HO & _). destruct (HO _ I) as [A B].
      repeat split; auto. intros ->. unfold head_text in I. apply in_app_or in I as [I|I].
      * apply (name_ok tag) in I; auto. now destruct I as (_ & _ & []).
      * destruct (attr_text_in _ _ Wn I) as (_ & _ & X). rewrite X in S; auto. discriminate.
  - set (et := flat_map esc_text_c text).
    assert (T : tostring (Elem tag attrs text kids) ++ rest =
                "<"%char :: head_text tag attrs ++ ">"%char :: et ++ flat_map tostring kids ++ L "</" ++ tag ++ L ">" ++ rest).
    { cbn [tostring]. destruct text as [|c0 t0], kids as [|k0 ks0]; cbn [app]; rewrite <- !app_assoc; cbn [app];
      repeat (rewrite <- !app_assoc; cbn [app]); auto. destruct D as [[]|[]]; reflexivity. }
    rewrite T. clear T.
    assert (Gd : good (Elem tag attrs text kids) = (match attrs with [] => Nat.leb 2 (length tag) | _ => true end) && forallb good kids).
    { destruct D as [N|N]; cbn [good]; destruct text, kids; auto; now destruct N. }
    rewrite Gd.
    set (body := et ++ flat_map tostring kids ++ L "</" ++ tag ++ L ">" ++ rest).
    assert (Hb : exists c b, body = c :: b /\ c <> ">"%char).
    { unfold body. destruct et as [|c x] eqn:Ee.
      - destruct (flat_map tostring kids) as [|c y] eqn:Ek.
        + exists "<"%char. eexists. split; [reflexivity|discriminate].
        + exists c. eexists. split; [reflexivity|]. destruct kids as [|k ks]; [discriminate|].
          destruct (tostring_lt k) as [s Es]. cbn [flat_map] in Ek. rewrite Es in Ek. injection Ek as <- _. discriminate.
      - exists c. eexists. split; [reflexivity|]. apply (esc_text_body text c). unfold et in Ee. rewrite Ee. now left. }
    destruct Hb as (c & b & Eb & Cb). rewrite Eb.
    destruct (match attrs with [] => Nat.leb 2 (length tag) | _ => true end) eqn:G2; cbn [andb].
    + rewrite P_open; auto.
      2:{ unfold head_text. rewrite app_length. destruct attrs as [|a l0].
          - apply Nat.leb_le in G2. lia.
          - destruct Wt as [N _]. destruct tag; [now destruct N|]. unfold attr_text. cbn. lia. }
      rewrite <- Eb.
      assert (Ks : forall ks s j, Forall (fun e => xml_tree e -> forall rest i l, hd " "%char rest <> ">"%char ->
                     P (tostring e ++ rest) i l = if good e then pre (render i e) (P rest i false) else Raise "XMLToolsInternalError"%string) ks ->
                   Forall xml_tree ks -> (exists x, s = "<"%char :: x) -> forall l, 
                   P (flat_map tostring ks ++ s) j l =
                   if forallb good ks then pre (flat_map (render j) ks) (P s j (match ks with [] => l | _ => false end)) else Raise "XMLToolsInternalError"%string).
      { clear. induction ks as [|k ks IHk]; intros s j F W S l.
        - cbn [flat_map app forallb]. unfold pre, bind. cbn [app]. destruct (P s j l); reflexivity.
        - inversion F as [|? ? F1 F2]; inversion W as [|? ? W1 W2]; subst. cbn [flat_map forallb]. rewrite <- app_assoc.
          rewrite F1; auto.
          + destruct (good k); auto. cbn [andb]. rewrite IHk; auto. destruct (forallb good ks); auto.
            rewrite pre_pre. now destruct ks.
          + destruct S as [x ->]. destruct ks as [|k2 ks2]; cbn; [discriminate|]. destruct (tostring_lt k2) as [y ->]. cbn. discriminate. }
      assert (Sx : exists x, L "</" ++ tag ++ L ">" ++ rest = "<"%char :: x) by (eexists; reflexivity).
      assert (Cl : forall l, P (L "</" ++ tag ++ L ">" ++ rest) (S i) l = pre ((if l then [] else ind i) ++ L "</" ++ tag ++ L ">" ++ [nl]) (P rest i false)).
      { intros l0. apply P_close; [apply Wt|]. intros d I. now apply (name_ok tag). }
      destruct text as [|t0 tx].
      * (* children only *)
        destruct kids as [|k ks]; [destruct D as [[]|[]]; reflexivity|].
        unfold body, et. cbn [flat_map app]. change (tostring k ++ flat_map tostring ks) with (flat_map tostring (k :: ks)).
        rewrite (Ks (k :: ks)); auto. destruct (forallb good (k :: ks)); auto.
        rewrite Cl, !pre_pre. f_equal. cbn [render flat_map].
        assert (Ec : c = "<"%char). { destruct (tostring_lt k) as [s Es]. unfold body, et in Eb. cbn [flat_map] in Eb. rewrite Es in Eb. cbn in Eb. now injection Eb. }
        rewrite Ec. cbn [Ascii.eqb]. rewrite <- !app_assoc. reflexivity.
      * (* with text *)
        assert (Ne : et <> []) by (intros X; apply esc_text_nil in X; discriminate).
        unfold body. rewrite P_text; auto.
        2:{ intros d I. now apply (esc_text_body (t0 :: tx)). }
        2:{ apply kids_then. reflexivity. }
        rewrite (Ks kids); auto. destruct (forallb good kids); auto.
        rewrite Cl, !pre_pre. f_equal.
        assert (Ec : Ascii.eqb c "<" = false).
        { unfold body in Eb. destruct et as [|x y] eqn:Ee; [now destruct Ne|]. injection Eb as <- _.
          apply Ascii.eqb_neq. apply (esc_text_body (t0 :: tx)). unfold et in Ee. rewrite Ee. now left. }
        rewrite Ec. cbn [render]. fold et. destruct kids as [|k ks]; cbn [app flat_map]; rewrite <- !app_assoc; cbn [app]; repeat (rewrite <- !app_assoc; cbn [app]); reflexivity.
    + destruct attrs as [|a l0]; [|discriminate]. apply Nat.leb_gt in G2.
      destruct tag as [|x [|y t]]; [now destruct Wt|cbn in *|cbn in G2; lia].
      unfold head_text. cbn [flat_map app]. apply P_open_bad; auto. apply (name_ok [x]); auto. now left.
Qed.
