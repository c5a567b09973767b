(* capgen: the code written around the call of a scheme in a group cap -- unit,
   kind and vertical-orientation transforms of arguments, pointers of optional
   arguments, the argument list -- and the meaning of that code.
   Models /repo/scripts/suite_objects.py: CallList.call_string L108-L191,
   Scheme.analyze L1269-L1286, associate_optional_var L1590-L1603,
   assign_pointer_to_var L1605-L1620, add_var_transform L1622-L1710,
   write_var_transform L1711-L1741, Scheme.write L1743-L1843.
   Not modelled: debug checks (L1294-L1588), the text of the dimensions added to
   an actual argument, the declarations. *)
From Coq Require Import List Ascii String ZArith QArith Bool.
From Verif Require Import PyStr UnitModel.
Import ListNotations.
Open Scope nat_scope. Open Scope list_scope.

Inductive intent := In_ | Out_ | InOut_.
Definition intent_eqb (a b : intent) : bool :=
  match a, b with In_, In_ => true | Out_, Out_ => true | InOut_, InOut_ => true | _, _ => false end.

(* what the analysis found for a variable of the scheme in the calling tree:
   dict_var and compat_obj of match_variable, L842-L951.  [h_cond] is the
   conditional text of dict_var (Var.conditional), [h_unit] the two templates of
   the unit conversion (scheme to host, host to scheme), [h_kind] says whether a
   kind conversion is needed, [h_flip] whether the vertical axes are opposite. *)
Record hostvar := mkHV { h_cond : str; h_unit : option (str * str); h_kind : bool; h_flip : bool }.
(* an argument of the scheme; [a_vert] is the start of its vertical range (a text:
   the local name found for it, or 1) and the standard name of its end *)
Record arg := mkArg {
  a_std : str; a_lname : str; a_intent : intent; a_opt : bool;
  a_vert : option (str * str); a_host : option hostvar }.
(* an entry of a dictionary of the group: local name and optional property *)
Record gent := mkGE { g_name : str; g_opt : bool }.
(* the group's own dictionary, its call list, the suite's dictionaries; keys are
   standard names *)
Record group := mkGrp { own : list (str * gent); calls : list (str * gent); suite : list (str * gent) }.

Fixpoint find (d : list (str * gent)) (n : str) : option gent :=
  match d with [] => None | (k, e) :: r => if str_eqb k n then Some e else find r n end.

(* L1271-L1276 *)
Definition has_transform (a : arg) : bool :=
  match a_host a with
  | None => false
  | Some h => h_flip h || match h_unit h with Some _ => true | None => false end || h_kind h
  end.
Definition local_of (a : arg) : str := a_lname a ++ L "_local".
Definition ptr_of (a : arg) : str := a_lname a ++ L "_ptr".

(* the index lists of a transform; only the vertical subscript differs from ":".
   Simplification: the other subscripts are a fixed column. *)
Inductive section := SAll | SUp (lo hi : str) | SDown (hi lo : str).

(* a registered transform: local copy, standard name, section of the local copy,
   section of the group's variable, unit template *)
Record trans := mkT { t_local : str; t_std : str; t_lsec : section; t_vsec : section; t_tmpl : option str }.

(* add_var_transform, L1650-L1678: lindices and rindices *)
Definition sections (g : group) (a : arg) (h : hostvar) : res (section * section) :=
  match a_vert a with
  | None => Ok (SAll, SAll)
  | Some (s, vstd) =>
      match find (calls g) vstd with
      | None => Raise "CCPPError"
      | Some e => Ok (SUp s (g_name e), if h_flip h then SDown (g_name e) s else SUp s (g_name e))
      end
  end.
(* L1686-L1710; kind conversion is the identity on the exact values of the model *)
Definition reverse_of (g : group) (a : arg) : res (list trans) :=
  match a_host a with
  | Some h =>
      if has_transform a then
        sc <- sections g a h ;;
        Ok (if negb (intent_eqb (a_intent a) Out_)
            then [mkT (local_of a) (a_std a) (fst sc) (snd sc) (option_map snd (h_unit h))] else [])
      else Ok []
  | None => Ok []
  end.
Definition forward_of (g : group) (a : arg) : res (list trans) :=
  match a_host a with
  | Some h =>
      if has_transform a then
        sc <- sections g a h ;;
        Ok (if negb (intent_eqb (a_intent a) In_)
            then [mkT (local_of a) (a_std a) (fst sc) (snd sc) (option_map fst (h_unit h))] else [])
      else Ok []
  | None => Ok []
  end.
Fixpoint gather (f : arg -> res (list trans)) (l : list arg) : res (list trans) :=
  match l with
  | [] => Ok []
  | a :: r => x <- f a ;; y <- gather f r ;; Ok (x ++ y)
  end.

(* the statements written *)
Inductive stmt :=
| SConv (l : str) (ls : section) (r : str) (rs : section) (t : option str)  (* l(ls) = t(r(rs)) *)
| SAssoc (c : str) (p l : str)                          (* if c then; p => l; end if *)
| SCopy (c : str) (l p : str)                           (* if c then; l = p; end if *)
| SCall (args : list (str * intent * str)).             (* call sub(dummy=actual, ...) *)

(* L1781-L1790: the group's name is looked up in its call list; when it is not
   there the attribute of None is asked for *)
Definition write_reverse (g : group) (t : trans) : res stmt :=
  match find (calls g) (t_std t) with
  | None => Raise "AttributeError"
  | Some e => Ok (SConv (t_local t) (t_lsec t) (g_name e) (t_vsec t) (t_tmpl t))
  end.
(* L1829-L1838 *)
Definition write_forward (g : group) (t : trans) : res stmt :=
  match find (calls g) (t_std t) with
  | None => Raise "AttributeError"
  | Some e => Ok (SConv (g_name e) (t_vsec t) (t_local t) (t_lsec t) (t_tmpl t))
  end.
Fixpoint emit {A} (f : A -> res stmt) (l : list A) : res (list stmt) :=
  match l with [] => Ok [] | a :: r => x <- f a ;; y <- emit f r ;; Ok (x :: y) end.

(* L1590-L1603 *)
Definition associate (a : arg) : list stmt :=
  if a_opt a then
    match a_host a with
    | Some h => [SAssoc (h_cond h) (ptr_of a) (if has_transform a then local_of a else a_lname a)]
    | None => []
    end
  else [].
(* L1605-L1620 *)
Definition copy_back (a : arg) : list stmt :=
  if a_opt a then
    match a_host a with
    | Some h =>
        if negb (intent_eqb (a_intent a) In_)
        then [SCopy (h_cond h) (if has_transform a then local_of a else a_lname a) (ptr_of a)] else []
    | None => []
    end
  else [].

(* CallList.call_string for a call, L119-L190; cldicts is the group, its call
   list and the suite dictionaries (Scheme.write L1748-L1753) *)
Definition lookup (g : group) (n : str) : option gent :=
  match find (own g) n with
  | Some e => Some e
  | None => match find (calls g) n with Some e => Some e | None => find (suite g) n end
  end.
Definition subst_name (n : str) (rev : list trans) (start : str) : str :=
  fold_left (fun acc t => if str_eqb (t_std t) n then t_local t else acc) rev start.
Definition actual (g : group) (rev : list trans) (a : arg) : res (str * intent * str) :=
  match lookup g (a_std a) with
  | None => Raise "CCPPError"
  | Some e => Ok (a_lname a, a_intent a,
                  subst_name (a_std a) rev (if g_opt e then ptr_of a else g_name e))
  end.
Fixpoint actuals (g : group) (rev : list trans) (l : list arg) : res (list (str * intent * str)) :=
  match l with [] => Ok [] | a :: r => x <- actual g rev a ;; y <- actuals g rev r ;; Ok (x :: y) end.

(* Scheme.write, L1743-L1843, for a scheme that has the phase; everything is
   inside the test of the error code *)
Definition scheme_code (g : group) (as_ : list arg) : res (list stmt) :=
  rev <- gather (reverse_of g) as_ ;;
  fwd <- gather (forward_of g) as_ ;;
  acts <- actuals g rev as_ ;;
  pre <- emit (write_reverse g) rev ;;
  post <- emit (write_forward g) fwd ;;
  Ok (pre ++ flat_map associate as_ ++ [SCall acts] ++ flat_map copy_back as_ ++ post).

(* the copies the group declares, add_var_transform L1643-L1647: not for a
   standard name of the group's own dictionary *)
Definition declared_locals (g : group) (as_ : list arg) : list str :=
  flat_map (fun a => if has_transform a then
                       match find (own g) (a_std a) with Some _ => [] | None => [local_of a] end
                     else []) as_.

(* ---- meaning of the statements (Fortran) ---- *)
(* values of one column, by vertical index; None is an undefined value *)
Definition arr := Z -> option Q.
Inductive obj := NoDecl | Unalloc | Arr (a : arr) | PNull | PTo (t : str).
Definition store := str -> obj.
Definition mset (m : store) (n : str) (o : obj) : store := fun x => if str_eqb x n then o else m x.

(* the k-th position of a section, and the rank of a position in a section;
   [iv] gives the value of an integer name *)
Definition pos (iv : str -> Z) (s : section) (k : Z) : Z :=
  match s with SAll => k | SUp lo hi => (iv lo + k)%Z | SDown hi lo => (iv hi - k)%Z end.
Definition rank_of (iv : str -> Z) (s : section) (i : Z) : option Z :=
  match s with
  | SAll => Some i
  | SUp lo hi => if (iv lo <=? i)%Z && (i <=? iv hi)%Z then Some (i - iv lo)%Z else None
  | SDown hi lo => if (iv lo <=? i)%Z && (i <=? iv hi)%Z then Some (iv hi - i)%Z else None
  end.
Definition convert (t : option str) (x : option Q) : option Q :=
  match x with
  | None => None
  | Some v => match t with None => Some v | Some t => apply_template t v end
  end.
Definition section_assign (iv : str -> Z) (ls rs : section) (t : option str) (l r : arr) : arr :=
  fun i => match rank_of iv ls i with Some k => convert t (r (pos iv rs k)) | None => l i end.

(* what a scheme finds behind a dummy argument *)
Inductive seen := Absent | Present (a : arr).
(* the object an actual argument designates; None: the program is in error *)
Definition target (m : store) (n : str) : option (option str) :=
  match m n with
  | NoDecl => None
  | Unalloc => Some None
  | Arr _ => Some (Some n)
  | PNull => Some None
  | PTo t => match m t with Arr _ => Some (Some t) | _ => None end
  end.
Definition contents (m : store) (n : str) : arr := match m n with Arr a => a | _ => fun _ => None end.
Fixpoint resolve (m : store) (l : list (str * intent * str)) : option (list (str * intent * option str)) :=
  match l with
  | [] => Some []
  | (d, it, n) :: r =>
      match target m n, resolve m r with Some t, Some ts => Some ((d, it, t) :: ts) | _, _ => None end
  end.
Definition sees (m : store) (x : str * intent * option str) : str * seen :=
  match x with
  | (d, _, None) => (d, Absent)
  | (d, it, Some t) => (d, Present (if intent_eqb it Out_ then fun _ => None else contents m t))
  end.
(* a scheme: from what it sees behind its dummies, the final value of each dummy *)
Definition scheme := list (str * seen) -> str -> arr.
Definition give_back (res_ : str -> arr) (m : store) (x : str * intent * option str) : store :=
  match x with
  | (d, it, Some t) => if intent_eqb it In_ then m else mset m t (Arr (res_ d))
  | (_, _, None) => m
  end.

Section Exec.
Variable truth : str -> bool.     (* value of a conditional *)
Variable iv : str -> Z.
Variable sch : scheme.

(* one statement; the trace keeps what the scheme saw at each call.
   Simplification: the truth of the conditionals does not change during the call. *)
Definition exec1 (s : stmt) (st : store * list (list (str * seen))) : option (store * list (list (str * seen))) :=
  let (m, tr) := st in
  match s with
  | SConv l ls r rs t =>
      match m l, m r with
      | Arr al, Arr ar => Some (mset m l (Arr (section_assign iv ls rs t al ar)), tr)
      | _, _ => None
      end
  | SAssoc c p l =>
      if truth c then
        match m p, m l with
        | PNull, Arr _ => Some (mset m p (PTo l), tr)
        | PTo _, Arr _ => Some (mset m p (PTo l), tr)
        | _, _ => None
        end
      else Some (m, tr)
  | SCopy c l p =>
      if truth c then
        match m p with
        | PTo t => match m l, m t with
                   | Arr _, Arr a => Some (mset m l (Arr a), tr)
                   | _, _ => None
                   end
        | _ => None
        end
      else Some (m, tr)
  | SCall args =>
      match resolve m args with
      | None => None
      | Some ts => let v := map (sees m) ts in
                   Some (fold_left (give_back (sch v)) ts m, tr ++ [v])
      end
  end.
Fixpoint exec (l : list stmt) (st : store * list (list (str * seen))) : option (store * list (list (str * seen))) :=
  match l with
  | [] => Some st
  | s :: r => match exec1 s st with Some st' => exec r st' | None => None end
  end.

(* L1756: if (errcode == 0) then ... end if *)
Definition run_scheme (code : list stmt) (errcode : Z) (m : store) : option (store * list (list (str * seen))) :=
  if (errcode =? 0)%Z then exec code (m, []) else Some (m, []).

(* the schemes of a group one after the other, the error code staying 0 *)
Fixpoint run_group (codes : list (list stmt)) (m : store) (tr : list (list (str * seen))) :
    option (store * list (list (str * seen))) :=
  match codes with
  | [] => Some (m, tr)
  | c :: r => match exec c (m, tr) with Some (m', tr') => run_group r m' tr' | None => None end
  end.
End Exec.
