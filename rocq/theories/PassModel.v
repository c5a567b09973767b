(* PassModel.v: how the caps of a static build pass variables to scheme routines
   (scripts/mkstatic.py): wrapped argument lists, unit conversions by way of temporary
   variables and pointers, copies of blocked data, intents of the cap's own arguments. *)
From Verif Require Import PyStr UnitModel.
From Coq Require Import ZArith Lia.
Open Scope nat_scope.
Open Scope list_scope.

(* ---- argument lists ---- *)
(* ' &\n' and 18 blanks, mkstatic.py L158-160 *)
Definition brk : str := L " &" ++ [nl] ++ List.repeat " "%char 18.
(* create_argument_list_wrapped L151-164, the loop: [last] is arguments[-1]; written as the
   text still to be appended instead of an accumulator *)
Fixpoint wrap_go (last : str) (len : nat) (args : list str) : str :=
  match args with
  | [] => []
  | a :: t => a ++ L "," ++
      (if (70 <? len + length a + 1) && negb (str_eqb a last) then brk ++ wrap_go last 0 t
       else wrap_go last (len + length a + 1) t)
  end.
(* str.rstrip(',') *)
Definition rstrip_comma (s : str) : str := rev (dropwhile (Ascii.eqb ",") (rev s)).
Definition wrapped (args : list str) : str := rstrip_comma (wrap_go (List.last args []) 0 args).
(* create_argument_list_wrapped_explicit L166-180: "a=a,"; 2*len(a)+2 *)
Fixpoint wrap_explicit_go (last : str) (len : nat) (args : list str) : str :=
  match args with
  | [] => []
  | a :: t => a ++ L "=" ++ a ++ L "," ++
      (if (70 <? len + (2 * length a + 2)) && negb (str_eqb a last) then brk ++ wrap_explicit_go last 0 t
       else wrap_explicit_go last (len + (2 * length a + 2)) t)
  end.
Definition wrapped_explicit (args : list str) (more : bool) : str :=
  let s := wrap_explicit_go (List.last args []) 0 args in if more then s else rstrip_comma s.

(* ---- unit conversions of an argument that is not blocked ---- *)
Inductive intent := IIn | IOut | IInout.
Definition intent_eqb (a b : intent) : bool :=
  match a, b with IIn, IIn | IOut, IOut | IInout, IInout => true | _, _ => false end.
(* compare_metadata, ccpp_prebuild.py L540-553: the directions in which a variable with
   other units than the host's gets a conversion *)
Definition act_in (differ : bool) (it : intent) : bool := differ && negb (intent_eqb it IOut).
Definition act_out (differ : bool) (it : intent) : bool := differ && negb (intent_eqb it IIn).

Inductive pstmt :=
| PAlloc          (* allocate(tmpvar(dims)) *)
| PConvIn         (* tmpvar = conversion of the host variable *)
| PPointTmp       (* ptr => tmpvar *)
| PPointHost      (* ptr => host variable *)
| PConvOut        (* host variable = conversion of tmpvar *)
| PNullify        (* nullify(ptr) *)
| PDealloc.       (* deallocate(tmpvar) *)
Definition opt_st (b : bool) (s : pstmt) : list pstmt := if b then [s] else [].
(* mkstatic.py L1732-1773 (conversions), L1797-1810 (none): [cond] the host variable is conditionally allocated
   (conditional is not '.true.'), [ain]/[aout] it has conversions, [arr] it has a rank *)
Definition before_call (cond ain aout arr : bool) : list pstmt :=
  if ain || aout then
    opt_st arr PAlloc ++ (if ain then PConvIn :: opt_st cond PPointTmp else [])
  else opt_st cond PPointHost.
Definition after_call (cond ain aout arr : bool) : list pstmt :=
  if ain || aout then
    (if aout then PConvOut :: opt_st cond PNullify else []) ++ opt_st arr PDealloc
  else opt_st cond PNullify.
Inductive actual := AHost | ATmp | APtr.
(* L1788-1794, L1827-1833 *)
Definition actual_arg (cond ain aout : bool) : actual := if cond then APtr else if ain || aout then ATmp else AHost.

Section Values.
Variable V : Type.
Variables conv_in conv_out : V -> V.   (* what the conversion templates compute *)
Inductive cell := Unalloc | Undef | Val (v : V).
Inductive pointer := Null | ToHost | ToTmp | Dangling.
Record pstate := mkP { p_host : cell; p_tmp : cell; p_ptr : pointer }.
(* conversions of something undefined are undefined *)
Definition conv (f : V -> V) (c : cell) : cell := match c with Val v => Val (f v) | _ => Undef end.
(* the Fortran meaning of the statements *)
Definition pexec (s : pstmt) (st : pstate) : pstate :=
  match s with
  | PAlloc => mkP (p_host st) Undef (p_ptr st)
  | PConvIn => mkP (p_host st) (conv conv_in (p_host st)) (p_ptr st)
  | PPointTmp => mkP (p_host st) (p_tmp st) ToTmp
  | PPointHost => mkP (p_host st) (p_tmp st) ToHost
  | PConvOut => mkP (conv conv_out (p_tmp st)) (p_tmp st) (p_ptr st)
  | PNullify => mkP (p_host st) (p_tmp st) Null
  | PDealloc => mkP (p_host st) Unalloc (match p_ptr st with ToTmp => Dangling | p => p end)
  end.
Definition pexecs (l : list pstmt) (st : pstate) : pstate := fold_left (fun st s => pexec s st) l st.
(* what the scheme finds in its dummy argument: nothing for a null pointer (the dummy is
   optional) *)
Inductive seen := Absent | Garbage | Present (c : cell).
Definition look (a : actual) (st : pstate) : seen :=
  match a with
  | AHost => Present (p_host st)
  | ATmp => Present (p_tmp st)
  | APtr => match p_ptr st with Null => Absent | ToHost => Present (p_host st) | ToTmp => Present (p_tmp st) | Dangling => Garbage end
  end.
(* the scheme leaves [sch what_it_saw] in a dummy that is not intent(in) *)
Definition call_scheme (it : intent) (sch : seen -> V) (a : actual) (st : pstate) : seen * pstate :=
  let s := look a st in
  let w := Val (sch s) in
  (s, if intent_eqb it IIn then st else
      match a with
      | AHost => mkP w (p_tmp st) (p_ptr st)
      | ATmp => mkP (p_host st) w (p_ptr st)
      | APtr => match p_ptr st with
                | ToHost => mkP w (p_tmp st) (p_ptr st)
                | ToTmp => mkP (p_host st) w (p_ptr st)
                | _ => st
                end
      end).
(* L1775-1786, L1812-1825, L1844-1850: the statements before and after stand under the
   condition of the variable ([active]: its value at run time; '.true.' if not [cond]) *)
Definition pass (cond active differ arr : bool) (it : intent) (sch : seen -> V) (st : pstate) : seen * pstate :=
  let ain := act_in differ it in let aout := act_out differ it in
  let run := negb cond || active in
  let st1 := if run then pexecs (before_call cond ain aout arr) st else st in
  let '(s, st2) := call_scheme it sch (actual_arg cond ain aout) st1 in
  (s, if run then pexecs (after_call cond ain aout arr) st2 else st2).
End Values.
Arguments Unalloc {V}. Arguments Undef {V}. Arguments Val {V}.
Arguments Absent {V}. Arguments Garbage {V}. Arguments Present {V}.
Arguments mkP {V}. Arguments p_host {V}. Arguments p_tmp {V}. Arguments p_ptr {V}.

(* ---- the text of the conversions ---- *)
(* str.format(var=..., kind=...) on the templates of unit_conversion.py *)
Fixpoint fmt (t var kind : str) : str :=
  match t with
  | "{"%char :: "v"%char :: "a"%char :: "r"%char :: "}"%char :: r => var ++ fmt r var kind
  | "{"%char :: "k"%char :: "i"%char :: "n"%char :: "d"%char :: "}"%char :: r => kind ++ fmt r var kind
  | c :: r => c :: fmt r var kind
  | [] => []
  end.
(* L1753-1756: the right-hand side of the assignment to the temporary variable; [base] is
   the target without its own dimension string, [d] the dimension string *)
Definition rhs_in (t base kind d : str) : str := fmt t base kind ++ d.
(* L1763-1766: left and right-hand side of the assignment back *)
Definition lhs_out (base d : str) : str := base ++ d.
Definition rhs_out (t tmp kind : str) : str := fmt t tmp kind.

(* ---- blocked data (stages init, timestep_init, timestep_finalize, finalize) ---- *)
Section Blocks.
(* one element is everything stored for one horizontal position: the other dimensions are
   copied whole, dimpad_before and dimpad_after L1619-1622.  [undef] is the content of
   freshly allocated memory; [cin]/[cout] are what the conversion templates compute *)
Variable A : Type.
Variable undef : A.
Variables cin cout : A -> A.
(* tmp(ib:ib+n-1) = block, ib counted from 1, L1636 *)
Definition write_slice (ib : nat) (block : list A) (tmp : list A) : list A :=
  firstn (ib - 1) tmp ++ block ++ skipn (ib - 1 + length block) tmp.
(* actions_in L1632-1639: allocate; ib = 1; do nb=1,block_count; copy; ib = ib+block_size;
   the size of a block is the horizontal loop extent of that block *)
Fixpoint copy_in_loop (ib : nat) (blocks : list (list A)) (tmp : list A) : list A :=
  match blocks with
  | [] => tmp
  | b :: t => copy_in_loop (ib + length b) t (write_slice ib b tmp)
  end.
Definition copy_in (hdim : nat) (blocks : list (list A)) : list A :=
  copy_in_loop 1 blocks (List.repeat undef hdim).
(* actions_out L1649-1655: block = tmp(ib:ib+size-1) for each block *)
Fixpoint copy_out_loop (ib : nat) (sizes : list nat) (tmp : list A) : list (list A) :=
  match sizes with
  | [] => []
  | n :: t => firstn n (skipn (ib - 1) tmp) :: copy_out_loop (ib + n) t tmp
  end.
Definition copy_out (sizes : list nat) (tmp : list A) : list (list A) := copy_out_loop 1 sizes tmp.
(* one call of a scheme routine in the group function: intent and "units differ" of its
   argument, and what the scheme makes of the contiguous array *)
Record bcall := mkB { b_intent : intent; b_differ : bool; b_scheme : list A -> list A }.
(* the statements around one call, L1670-1715; [back] says whether actions_out copies the
   data back (L1648) or only deallocates (L1663-1665).  A conditional variable gets a
   pointer to the temporary in addition (L1680-1684, L1694-1696): not modelled here *)
Definition blocked_call (back : bool) (hdim : nat) (c : bcall) (blocks : list (list A)) : list (list A) :=
  let tmp := copy_in hdim blocks in
  let tmp := if act_in (b_differ c) (b_intent c) then map cin tmp else tmp in
  let tmp := if intent_eqb (b_intent c) IIn then tmp else b_scheme c tmp in
  let tmp := if act_out (b_differ c) (b_intent c) then map cout tmp else tmp in
  if back then copy_out (map (@length A) blocks) tmp else blocks.
(* all the calls in one group function that use the variable: the temporary variable and
   its actions are those of the first of them (tmpvars is made once per stage, L1095, and
   looked up L1578-1581), the conversions are the call's own (L1671, L1686) *)
Definition blocked_group (hdim : nat) (cs : list bcall) (blocks : list (list A)) : list (list A) :=
  match cs with
  | [] => blocks
  | c1 :: _ => fold_left (fun bl c => blocked_call (negb (intent_eqb (b_intent c1) IIn)) hdim c bl) cs blocks
  end.
End Blocks.
Arguments mkB {A}. Arguments b_intent {A}. Arguments b_differ {A}. Arguments b_scheme {A}.

(* ---- intents of the arguments of a group function ---- *)
(* one occurrence of a host variable as the parent (u_index = false) or as an index
   (u_index = true) of an argument of a scheme; u_known: the argument has been seen before
   in this stage; u_component: it is only a part of the host variable (not used) *)
Record use := mkUse { u_index : bool; u_known : bool; u_component : bool; u_intent : intent }.
(* mkstatic.py L1297-1319 (first occurrence of the argument), L1333-1340 (later ones) *)
Definition step_intent (cur : option intent) (u : use) : option intent :=
  match cur with
  | None => Some (if u_index u then IIn else u_intent u)
  | Some IIn => if negb (u_index u) && negb (intent_eqb (u_intent u) IIn) then Some IInout else Some IIn
  | Some IOut =>
      if u_known u then (if negb (intent_eqb (u_intent u) IOut) then Some IInout else Some IOut)
      else if negb (u_index u) && negb (intent_eqb (u_intent u) IOut) then Some IInout else Some IInout
  | Some IInout => Some IInout
  end.
Definition group_intent (us : list use) : option intent := fold_left step_intent us None.
(* Suite.write L846-856 *)
Definition merge_intent (cur : option intent) (g : intent) : option intent :=
  match cur with
  | None => Some g
  | Some IIn => if negb (intent_eqb g IIn) then Some IInout else Some IIn
  | Some IOut => if negb (intent_eqb g IOut) then Some IInout else Some IOut
  | Some IInout => Some IInout
  end.
Definition suite_intent (gs : list intent) : option intent := fold_left merge_intent gs None.
