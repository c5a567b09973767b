(* CompatModel.v: scripts/var_props.py - dimension categories (L27-L130),
   DimTransform (L243-L513) and VarCompatObj (L768-L1470).
   Loop indices are modelled by their run-time integer values instead of by the
   index expression text ("i-col_start+1" is the integer i - col_start + 1). *)
From Verif Require Export UnitModel.
Open Scope nat_scope.
Open Scope list_scope.

(* L30-L34 *)
Definition horizontal_dims : list str :=
  map L ["ccpp_constant_one:horizontal_dimension"; "ccpp_constant_one:horizontal_loop_extent";
         "horizontal_loop_begin:horizontal_loop_end"; "horizontal_dimension"; "horizontal_loop_extent"]%string.
(* L38-L42 *)
Definition vertical_dims : list str :=
  map L ["ccpp_constant_one:vertical_layer_dimension"; "ccpp_constant_one:vertical_interface_dimension";
         "vertical_layer_dimension"; "vertical_interface_dimension";
         "vertical_layer_index"; "vertical_interface_index"]%string.
(* L54-L71, L74-L93 *)
Definition is_horizontal (d : str) : bool := existsb (str_eqb d) horizontal_dims.
Definition is_vertical (d : str) : bool := existsb (str_eqb d) vertical_dims.

(* substring test: sub in s *)
Fixpoint contains (sub s : str) : bool :=
  startswith sub s || match s with [] => false | _ :: t => contains sub t end.
(* __is_horizontal_loop_dimension, L508-L512 *)
Definition is_hloop (d : str) : bool := is_horizontal d && negb (contains (L "horizontal_dimension") d).

(* DimTransform.__init__, L255-L372; vertical index None stands for -1 *)
Record dim_transform := mkDT {
  fperm : list nat; rperm : list nat;
  fh : nat; rh : nat; fv : option nat; rv : option nat;
  v1_hloop : bool; v2_hloop : bool }.
Definition idx_ok (i : option nat) (n : nat) : bool := match i with Some k => k <? n | None => false end.
Definition vidx_ok (i : option nat) (n : nat) : bool := match i with Some k => k <? n | None => true end.
Definition make_dt (fp rp : list nat) (fhd : str) (fhi fvi : option nat) (rhd : str) (rhi rvi : option nat)
  : res dim_transform :=
  if negb (length fp =? length rp) then Raise "ParseInternalError"
  else if negb (idx_ok fhi (length fp)) then Raise "ParseInternalError"
  else if negb (vidx_ok fvi (length fp)) then Raise "ParseInternalError"
  else if negb (idx_ok rhi (length rp)) then Raise "ParseInternalError"
  else if negb (vidx_ok rvi (length rp)) then Raise "ParseInternalError"
  else if negb (is_hloop fhd) && negb (contains (L "horizontal_dimension") fhd) then Raise "ParseInternalError"
  else if negb (is_hloop rhd) && negb (contains (L "horizontal_dimension") rhd) then Raise "ParseInternalError"
  else match fhi, rhi with
       | Some a, Some b => Ok (mkDT fp rp a b fvi rvi (is_hloop fhd) (is_hloop rhd))
       | _, _ => Raise "ParseInternalError"
       end.

(* apply an index list through a permutation: [indices[x] for x in perm] *)
Fixpoint gather (p : list nat) (idx : list Z) : option (list Z) :=
  match p with
  | [] => Some []
  | x :: t => match nth_error idx x, gather t idx with
              | Some v, Some r => Some (v :: r)
              | _, _ => None
              end
  end.
Definition upd (l : list Z) (i : nat) (f : Z -> Z) : list Z :=
  match nth_error l i with Some v => list_set l i (f v) | None => l end.
(* list[-1] when there is no vertical dimension *)
Definition vpos (i : option nat) (l : list Z) : nat := match i with Some k => k | None => length l - 1 end.

(* forward_transform, L374-L439: indices of "var2" for the indices of "var1".
   adj: value of horizontal_loop_begin; flip: vertical extent. *)
Definition forward (t : dim_transform) (adj flip : option Z) (idx : list Z) : option (list Z) :=
  match gather (fperm t) idx with
  | None => None
  | Some l =>
      let l := match adj with
               | None => l
               | Some c =>
                   if v1_hloop t && negb (v2_hloop t) then upd l (fh t) (fun h => h + c - 1)%Z
                   else if v2_hloop t && negb (v1_hloop t) then upd l (fh t) (fun h => h - c + 1)%Z
                   else l
               end in
      let l := match flip with
               | None => l
               | Some n => upd l (vpos (fv t) l) (fun v => n - v + 1)%Z
               end in
      Some l
  end.
(* reverse_transform, L441-L506 *)
Definition reverse (t : dim_transform) (adj flip : option Z) (idx : list Z) : option (list Z) :=
  match gather (rperm t) idx with
  | None => None
  | Some l =>
      let l := match adj with
               | None => l
               | Some c =>
                   if v1_hloop t && negb (v2_hloop t) then upd l (rh t) (fun h => h - c + 1)%Z
                   else if v2_hloop t && negb (v1_hloop t) then upd l (rh t) (fun h => h + c - 1)%Z
                   else l
               end in
      let l := match flip with
               | None => l
               | Some n => upd l (vpos (rv t) l) (fun v => n - v + 1)%Z
               end in
      Some l
  end.

(* __regularize_dimensions, L1382-L1401 *)
Definition hdim_temp : str := L "_CCPP_HORIZ_DIM".
Definition reg_dim (d : str) : str :=
  if is_horizontal d then hdim_temp
  else if contains (L ":") d then d else L "ccpp_constant_one:" ++ d.
Definition regularize (dims : list str) : list str := map reg_dim dims.

(* equality of two lists of texts *)
Fixpoint strs_eqb (a b : list str) : bool :=
  match a, b with
  | [], [] => true
  | x :: a', y :: b' => str_eqb x y && strs_eqb a' b'
  | _, _ => false
  end.
(* sorted(a) == sorted(b): equal as multisets *)
Fixpoint remove1 (x : str) (l : list str) : option (list str) :=
  match l with
  | [] => None
  | y :: t => if str_eqb x y then Some t
              else match remove1 x t with Some r => Some (y :: r) | None => None end
  end.
Fixpoint same_multiset (a b : list str) : bool :=
  match a with
  | [] => match b with [] => true | _ => false end
  | x :: t => match remove1 x b with Some r => same_multiset t r | None => false end
  end.

(* first position of dimension d in v1 that is not used yet, L1300-L1304 *)
Fixpoint find_unused (v1 : list str) (d : str) (used : list nat) (i : nat) : option nat :=
  match v1 with
  | [] => None
  | x :: t => if str_eqb x d && negb (existsb (Nat.eqb i) used) then Some i
              else find_unused t d used (S i)
  end.
Record perm_state := mkPS {
  ps_f : list nat; ps_r : list (option nat);
  ps_fhd : str; ps_fh : option nat; ps_fv : option nat;
  ps_rhd : str; ps_rh : option nat; ps_rv : option nat }.
(* the body of the loop over v2_dims, L1298-L1320 *)
Definition perm_step (var1 var2 v1 : list str) (s : perm_state) (j : nat) (d : str) : perm_state :=
  match find_unused v1 d (ps_f s) 0 with
  | None => s
  | Some i =>
      let f := ps_f s ++ [i] in
      let r := list_set (ps_r s) i (Some j) in
      let n1 := nth i var1 [] in
      if is_horizontal n1 then mkPS f r n1 (Some i) (ps_fv s) (nth j var2 []) (Some j) (ps_rv s)
      else if is_vertical n1 then mkPS f r (ps_fhd s) (ps_fh s) (Some i) (ps_rhd s) (ps_rh s) (Some j)
      else mkPS f r (ps_fhd s) (ps_fh s) (ps_fv s) (ps_rhd s) (ps_rh s) (ps_rv s)
  end.
Fixpoint perm_loop (var1 var2 v1 : list str) (s : perm_state) (j : nat) (v2 : list str) : perm_state :=
  match v2 with
  | [] => s
  | d :: t => perm_loop var1 var2 v1 (perm_step var1 var2 v1 s j d) (S j) t
  end.
Fixpoint all_some (l : list (option nat)) : option (list nat) :=
  match l with
  | [] => Some []
  | Some x :: t => match all_some t with Some r => Some (x :: r) | None => None end
  | None :: _ => None
  end.
(* _get_dim_transforms, L1215-L1335: (still equivalent?, transform) *)
Definition get_dim_transforms (var1 var2 : list str) : res (bool * option dim_transform) :=
  let v1 := regularize var1 in
  let v2 := regularize var2 in
  let same := strs_eqb v1 v2 in
  if (length v1 =? length v2) && same_multiset v1 v2 then
    let s := perm_loop var1 var2 v1
               (mkPS [] (List.repeat None (length v1)) [] None None [] None None) 0 v2 in
    if negb (length (ps_f s) =? length v1) then Raise "ParseInternalError"
    else match all_some (ps_r s) with
         | None => Raise "ParseInternalError"     (* unreachable, see CompatProofs.v *)
         | Some r =>
             t <- make_dt (ps_f s) r (ps_fhd s) (ps_fh s) (ps_fv s) (ps_rhd s) (ps_rh s) (ps_rv s) ;;
             Ok (same, Some t)
         end
  else Ok (same, None).

(* ---- VarCompatObj ---- *)
Record var_info := mkVI {
  vi_std : str; vi_type : str; vi_kind : str; vi_units : str; vi_dims : list str; vi_top : bool }.
Record compat_obj := mkCO {
  co_equiv : bool; co_compat : bool;
  co_kind : option (str * str); co_unit : option (str * str); co_dim : option dim_transform;
  co_vert : bool }.

(* char_kind_check, L1337-L1352: only says whether the text is a len argument *)
Definition char_kind_check (k : str) : bool :=
  match List.filter (fun x => negb (str_eqb x [])) (map strip (split_on "," k)) with
  | [e] => str_eqb (lower (firstn 4 e)) (L "len=")
  | _ => false
  end.
(* run_env.kind_spec, framework_env.py L270-L279 *)
Fixpoint kind_spec (kinds : list (str * str)) (k : str) : option str :=
  match kinds with
  | [] => None
  | (n, v) :: t => if str_eqb n k then Some v else kind_spec t k
  end.
(* _get_kind_convstrs, L1092-L1146 *)
Definition kind_value (kinds : list (str * str)) (k : str) : str :=
  match kind_spec kinds k with Some v => v | None => k end.
Definition get_kind_convstrs (kinds : list (str * str)) (k1 k2 : str) : option (str * str) :=
  if str_eqb (kind_value kinds k1) (kind_value kinds k2) then None else Some (k1, k2).

(* text before the first occurrence of pat: s.split(pat)[0] *)
Fixpoint before_first (pat s : str) : str :=
  if startswith pat s then []
  else match s with [] => [] | c :: t => c :: before_first pat t end.
Definition norm_units (u : str) : str := if str_eqb (lower u) (L "none") then L "none" else u.

(* VarCompatObj.__init__, L857-L1000 *)
Definition var_compat (kinds : list (str * str)) (is_tend : bool) (v1 v2 : var_info) : res compat_obj :=
  let fatal :=
    (is_tend && negb (startswith (L "tendency_of") (vi_std v1))) ||
    (negb is_tend && negb (str_eqb (vi_std v1) (vi_std v2))) ||
    negb (str_eqb (vi_type v1) (vi_type v2)) in
  if fatal then Ok (mkCO false false None None None false)
  else
    (* kind *)
    let is_char := str_eqb (vi_type v1) (L "character") in
    if is_char && negb (char_kind_check (vi_kind v1) && char_kind_check (vi_kind v2))
    then Ok (mkCO false false None None None false)
    else
    let kt := if is_char || str_eqb (vi_kind v1) (vi_kind v2) then None
              else get_kind_convstrs kinds (vi_kind v1) (vi_kind v2) in
    let eq1 := match kt with None => true | Some _ => false end in
    (* units *)
    let u1 := norm_units (vi_units v1) in
    let u2 := norm_units (vi_units v2) in
    if is_tend && negb (str_eqb (strip (before_first (L "s-1") u1)) u2)
    then Ok (mkCO false false kt None None false)
    else
    ut <- (if is_tend || str_eqb u1 u2 then Ok None
           else r <- get_unit_convstrs u1 u2 ;; Ok (Some r)) ;;
    let eq2 := eq1 && match ut with None => true | Some _ => false end in
    (* orientation *)
    let vert := negb (Bool.eqb (vi_top v1) (vi_top v2)) in
    (* dimensions; for two empty lists the test L983 is false as well *)
    if strs_eqb (vi_dims v1) (vi_dims v2)
    then Ok (mkCO eq2 true kt ut None vert)
    else
      dt <- get_dim_transforms (vi_dims v1) (vi_dims v2) ;;
      Ok (mkCO (eq2 && fst dt) (match snd dt with Some _ => true | None => false end) kt ut (snd dt) vert).

(* forward_transform / reverse_transform of VarCompatObj, L1002-L1090: the
   assigned right-hand side text for right-hand variable text [rhs]; k1, k2 are
   the kinds kept in the object (None for character variables) *)
Fixpoint subst_template (fuel : nat) (t var kind : str) : str :=
  match fuel, t with
  | O, _ => []
  | _, [] => []
  | S fuel, c :: r =>
      match after_prefix (L "{var}") t with
      | Some r' => var ++ subst_template fuel r' var kind
      | None => match after_prefix (L "{kind}") t with
                | Some r' => kind ++ subst_template fuel r' var kind
                | None => c :: subst_template fuel r var kind
                end
      end
  end.
Definition convert_text (kt ut : option (str * str)) (pick : str * str -> str) (upick : str * str -> str)
    (kind_of_target : str) (rhs : str) : str :=
  let '(rhs, kind) := match kt with
                      | Some p => (L "real(" ++ rhs ++ L ", " ++ pick p ++ L ")", pick p)
                      | None => (rhs, [])
                      end in
  match ut with
  | None => rhs
  | Some p =>
      let kind := match kind with
                  | _ :: _ => L "_" ++ kind
                  | [] => match kind_of_target with [] => [] | _ => L "_" ++ kind_of_target end
                  end in
      subst_template (length (upick p)) (upick p) rhs kind
  end.
Definition forward_text (o : compat_obj) (v1 v2 : var_info) (rhs : str) : str :=
  convert_text (co_kind o) (co_unit o) snd fst
    (if str_eqb (vi_type v1) (L "character") then [] else vi_kind v2) rhs.
Definition reverse_text (o : compat_obj) (v1 v2 : var_info) (rhs : str) : str :=
  convert_text (co_kind o) (co_unit o) fst snd
    (if str_eqb (vi_type v1) (L "character") then [] else vi_kind v1) rhs.
