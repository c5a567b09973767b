(* DataSpec.v: what the datatable queries and the report layout promise. *)
From Verif Require Import PyStr DataModel.
Open Scope nat_scope.
Open Scope list_scope.

(* Python's order of strings: by character codes *)
Inductive before : str -> str -> Prop :=
| before_nil c s : before [] (c :: s)
| before_head a b s t : code a < code b -> before (a :: s) (b :: t)
| before_tail a s t : before s t -> before (a :: s) (a :: t).
(* sorted and without duplicates *)
Inductive ascending : list str -> Prop :=
| asc_nil : ascending []
| asc_cons x l : Forall (before x) l -> ascending l -> ascending (x :: l).

(* x is the first element of l that satisfies P *)
Definition first {A} (P : A -> Prop) (l : list A) (x : A) : Prop :=
  exists pre post, l = pre ++ x :: post /\ P x /\ forall y, In y pre -> ~ P y.

(* the chain of dictionaries that starts at d: the parent is the first of that name *)
Inductive ancestor (t : xtable) : xdict -> xdict -> Prop :=
| anc_refl d : ancestor t d d
| anc_step d p e f : xd_parent d = Some p -> first (fun x => xd_name x = p) (xt_dicts t) e ->
                     ancestor t e f -> ancestor t d f.
(* v is marked protected in d or an ancestor: by the first entry for v there *)
Definition protected (t : xtable) (v : str) (d : xdict) : Prop :=
  exists e x, ancestor t d e /\ first (fun y => xv_name y = v) (xd_vars e) x /\ xv_protected x = Some (L "True").
Definition the_host (t : xtable) (h : xdict) : Prop := first (fun d => xd_type d = L "host") (xt_dicts t) h.
Definition has_var (d : xdict) (v : str) : Prop := exists x, In x (xd_vars d) /\ xv_name x = v.
(* d is the call list of the group called g *)
Definition call_list_of (t : xtable) (g : str) (d : xdict) : Prop :=
  first (fun x => xd_name x = g ++ L "_call_list" /\ xd_type x = L "group_call_list") (xt_dicts t) d.
Definition group_of (t : xtable) (suite g : str) : Prop :=
  exists s, In s (xt_suites t) /\ xs_name s = suite /\ In (L "group", g) (xs_items s).

Inductive kind := KAll | KInput | KOutput.
Definition intent_word (k : kind) : option str :=
  match k with KAll => None | KInput => Some (L "input") | KOutput => Some (L "output") end.
Definition wanted (k : kind) (i : str) : Prop :=
  match k with
  | KAll => i = L "in" \/ i = L "out" \/ i = L "inout"
  | KInput => i = L "in" \/ i = L "inout"
  | KOutput => i = L "out" \/ i = L "inout"
  end.
(* v is a variable of the suite with a wanted intent *)
Definition listed (t : xtable) (suite : str) (k : kind) (excl : bool) (v : str) : Prop :=
  exists g d x i, group_of t suite g /\ call_list_of t g d /\ In x (xd_vars d) /\ xv_name x = v /\
    xv_intent x = Some i /\ wanted k i /\
    (excl = true -> ~ protected t v d /\ forall h, the_host t h -> has_var h v -> ~ protected t v h).

(* ---- layout of a report line ---- *)
Definition blank (s : str) : Prop := forall c, In c s -> is_space c = true.
Definition first_word (s : str) : str := takewhile (fun c => negb (Ascii.eqb c " ")) s.
(* s is broken into the pieces ps at blanks that start with a space; a piece stands after
   an indentation of i characters (the first) or j (the others); w: the line length *)
Inductive broken (w : nat) : nat -> nat -> str -> list str -> Prop :=
| whole i j s : w = 0 \/ i + length s <= w \/ ~ In " "%char s -> broken w i j s [s]
| split i j p g q ps :
    0 < w -> p <> [] -> blank g -> (exists g', g = " "%char :: g') ->
    (exists c q', q = c :: q' /\ is_space c = false) ->
    i + length p <= w \/ ~ In " "%char p ->
    w < i + length (p ++ g ++ first_word q) ->
    broken w j j q ps -> broken w i j (p ++ g ++ q) (p :: ps).
Definition nonblank (s : str) : str := List.filter (fun c => negb (is_space c)) s.
