(* WdModes.v: the attributes written for dummy arguments, local variables and pointers. *)
From Verif Require Import PyStr Base PhaseSpec CheckSpec CheckProofs LineSpec Regex CheckModel DictModel HdrModel CsModel CsProofs DeclSpec DeclProofs DeclBody WdModel WdSpec WdProofs.
From Coq Require Import Lia.
Open Scope nat_scope.
Open Scope list_scope.

(* ---- attributes ---- *)
Definition is_setb (n : string) (al : list attr) : bool := existsb (fun a => named n a && match a_arg a with None => true | _ => false end) al.
Lemma is_set_b n al : is_set n al <-> is_setb n al = true.
Proof.
  unfold is_set, is_setb. rewrite existsb_exists. split; intros (a & I & H).
  - exists a. destruct H as [H1 H2]. rewrite H1, H2. auto.
  - apply andb_true_iff in H as [H1 H2]. exists a. destruct (a_arg a); [discriminate|auto].
Qed.
Lemma intent_free i c : intent_ok i -> c = ":"%char \/ c = "!"%char \/ c = "("%char \/ c = ")"%char -> ~ In c i.
Proof.
  intros I C. assert (LC : lower_c c = c) by (destruct C as [->|[->|[->| ->]]]; reflexivity).
  destruct I as [I|[I|[I|[]]]]; apply (spells_free c _ _ LC (eq_sym I)); destruct C as [->|[->|[->| ->]]]; cbn; intuition discriminate.
Qed.
Lemma blank_chars w c : blank w -> In c w -> c <> ":"%char /\ c <> "!"%char.
Proof. intros B I. unfold blank in B. rewrite forallb_forall in B. apply B in I. split; intros ->; discriminate. Qed.
Lemma plain_none b n a : blank b -> blank a -> In n ["allocatable"; "target"; "optional"; "pointer"]%string -> plain_attr (mkAttr b (L n) [] None a).
Proof.
  intros B A I. split; [|split].
  - split; auto. split; [reflexivity|]. split; auto. cbn [a_name a_arg]. split; [|split; [discriminate|]].
    + destruct I as [<-|[<-|[<-|[<-|[]]]]]; cbn; intuition.
    + intros [X|X]; exfalso; destruct I as [<-|[<-|[<-|[<-|[]]]]]; discriminate.
  - unfold attr_text. cbn [a_before a_name a_gap a_arg a_after app]. intros c C. apply in_app_iff in C as [C|C]; [now apply (blank_chars b)|]. apply in_app_iff in C as [C|C]; [|now apply (blank_chars a)].
    split; intros ->; destruct I as [<-|[<-|[<-|[<-|[]]]]]; cbn in C; intuition discriminate.
  - reflexivity.
Qed.
Lemma plain_intent b i a : blank b -> blank a -> intent_ok i -> plain_attr (mkAttr b (L "intent") [] (Some i) a).
Proof.
  intros B A I. split; [|split].
  - split; auto. split; [reflexivity|]. split; auto. cbn [a_name a_arg]. split; [cbn; tauto|]. split; [|discriminate].
    intros x [= <-]. apply no_paren_balanced; apply intent_free; auto.
  - unfold attr_text. cbn [a_before a_name a_gap a_arg a_after app]. intros c C. apply in_app_iff in C as [C|C]; [now apply (blank_chars b)|]. apply in_app_iff in C as [C|C]; [split; intros ->; cbn in C; intuition discriminate|].
    apply in_app_iff in C as [C|C]; [|now apply (blank_chars a)]. apply in_app_iff in C as [C|C]; [split; intros ->; cbn in C; intuition discriminate|].
    apply in_app_iff in C as [C|C]; [split; intros ->; revert C; apply intent_free; auto|split; intros ->; cbn in C; intuition discriminate].
  - discriminate.
Qed.
Lemma ends_out_spec i : intent_ok i -> ends_out i = true <-> output i.
Proof.
  intros I. unfold ends_out, output. destruct I as [I|[I|[I|[]]]]; rewrite <- I; (split; [intros H|intros [H|H]]); try discriminate H; try reflexivity; auto.
Qed.

(* ---- dummy arguments ---- *)
Definition targ_attrs (w : wvar) : list attr := if w_target w then [mkAttr (L " ") (L "target") [] None []] else [].
Definition dummy_attrs (w : wvar) (i sp : str) : list attr :=
  targ_attrs w ++
  (if w_protected w then [mkAttr sp (L "intent") [] (Some (L "in")) (L "    ")]
   else if ends_out i && w_allocatable w then [mkAttr sp (L "allocatable") [] None []; mkAttr (L " ") (L "intent") [] (Some i) (spaces (5 - len i) ++ L " ")]
   else if w_optional w then [mkAttr sp (L "intent") [] (Some i) []; mkAttr (spaces (5 - len i)) (L "target") [] None []; mkAttr (L " ") (L "optional") [] None (L "  ")]
   else [mkAttr sp (L "intent") [] (Some i) (spaces (5 - len i) ++ L " ")]).
Lemma dummy_plain w i sp : intent_ok i -> blank sp -> Forall plain_attr (dummy_attrs w i sp).
Proof.
  intros I B. unfold dummy_attrs, targ_attrs. apply Forall_app. split.
  - destruct (w_target w); [apply Forall_cons|]; try apply Forall_nil. apply plain_none; try reflexivity. cbn; auto.
  - assert (S1 := spaces_blank (5 - len i)). assert (S2 : blank (spaces (5 - len i) ++ L " ")) by now apply blank_ap.
    destruct (w_protected w); [|destruct (ends_out i && w_allocatable w); [|destruct (w_optional w)]]; repeat apply Forall_cons; try apply Forall_nil;
      try (apply plain_intent; try assumption; try reflexivity; cbn; tauto); apply plain_none; try assumption; try reflexivity; cbn; tauto.
Qed.
Lemma dummy_text w i sp dims : intent_str w false false true (Some i) dims = intent_str w false true true (Some i) dims /\
  forall tgt, (if w_target w then L ", target" else []) ++ (if str_eqb (strip (intent_str w false tgt true (Some i) dims)) [] then L " " else L ",") ++ sp ++ intent_str w false tgt true (Some i) dims ++ L " :: " =
  attrs_text (dummy_attrs w i sp) ++ L ":: ".
Proof.
  split; [reflexivity|]. intros tgt. unfold intent_str, dummy_attrs, targ_attrs. rewrite andb_true_r. cbn [negb].
  assert (NB : str_eqb (strip (if w_protected w then L "intent(in)   " else if ends_out i && w_allocatable w then L "allocatable, intent(" ++ i ++ L ")" ++ spaces (5 - len i)
    else if w_optional w then (L "intent(" ++ i ++ L ")," ++ spaces (5 - len i)) ++ L "target, optional " else L "intent(" ++ i ++ L ")" ++ spaces (5 - len i))) [] = false).
  { apply (strip_nonblank _ "n"%char); [|reflexivity]. destruct (w_protected w); [cbn; tauto|]. destruct (ends_out i && w_allocatable w); [|destruct (w_optional w); [rewrite <- app_assoc|]]; apply in_app_iff; left; cbn; tauto. }
  rewrite NB. unfold attrs_text. rewrite map_app, concat_app, <- (app_assoc (List.concat _)). f_equal; [destruct (w_target w); reflexivity|]. cbn [app].
  destruct (w_protected w); [|destruct (ends_out i && w_allocatable w); [|destruct (w_optional w)]]; unfold attr_text; cbn [map List.concat a_before a_name a_gap a_arg a_after app]; rewrite ?app_nil_r, <- ?app_assoc; cbn [app]; rewrite <- ?app_assoc; reflexivity.
Qed.

(* ---- local variables ---- *)
Definition local_attrs (w : wvar) (b target : bool) (sp tail : str) : list attr :=
  if b then targ_attrs w ++ (if target then [mkAttr sp (L "allocatable") [] None []; mkAttr (L "  ") (L "target") [] None (L " ")]
                             else [mkAttr sp (L "allocatable") [] None (L "          ")])
  else if w_target w then [mkAttr (L " ") (L "target") [] None (L " " ++ sp ++ tail)] else [].
Definition local_gap (w : wvar) (b : bool) (sp tail : str) : str := if b then [] else if w_target w then [] else L " " ++ sp ++ tail.
Lemma local_plain w b target sp tail : blank sp -> blank tail -> Forall plain_attr (local_attrs w b target sp tail) /\ blank (local_gap w b sp tail).
Proof.
  intros B C. assert (S1 : blank (L " " ++ sp ++ tail)) by (apply blank_ap; [reflexivity|now apply blank_ap]). unfold local_attrs, local_gap, targ_attrs. split.
  - destruct b; [apply Forall_app; split|]; [destruct (w_target w)|destruct target|destruct (w_target w)]; repeat apply Forall_cons; try apply Forall_nil; apply plain_none; try assumption; try reflexivity; cbn; tauto.
  - destruct b; [reflexivity|]. destruct (w_target w); [reflexivity|exact S1].
Qed.
(* the text of the attributes of a local variable *)
Definition local_str (b target : bool) (n : Z) : str :=
  if b then if target then L "allocatable," ++ L "  target" else L "allocatable         " else spaces n.
Lemma local_text w b target sp n : (if w_target w then L ", target" else []) ++ (if str_eqb (strip (local_str b target n)) [] then L " " else L ",") ++ sp ++ local_str b target n ++ L " :: " =
  local_gap w b sp (spaces n ++ L " ") ++ attrs_text (local_attrs w b target sp (spaces n ++ L " ")) ++ L ":: ".
Proof.
  unfold local_str, local_attrs, local_gap, targ_attrs. destruct b.
  - assert (NB : str_eqb (strip (if target then L "allocatable," ++ L "  target" else L "allocatable         ")) [] = false) by (destruct target; reflexivity). rewrite NB.
    unfold attrs_text. rewrite map_app, concat_app. cbn [app]. rewrite <- (app_assoc (List.concat _)). f_equal; [destruct (w_target w); reflexivity|]. destruct target; unfold attr_text; cbn [map List.concat a_before a_name a_gap a_arg a_after app]; rewrite ?app_nil_r, <- ?app_assoc; cbn [app]; rewrite <- ?app_assoc; reflexivity.
  - rewrite strip_spaces. destruct (w_target w); unfold attrs_text, attr_text; cbn [map List.concat a_before a_name a_gap a_arg a_after app]; rewrite ?app_nil_r, <- ?app_assoc; cbn [app]; rewrite <- ?app_assoc; reflexivity.
Qed.
