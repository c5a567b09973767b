(* ReqModel.v: model of API.write_req_vars_sub, scripts/ccpp_suite.py L816-1130:
   the generator of the subroutine ccpp_physics_suite_variables, and of the
   generated Fortran code for one suite.  Python sets are lists without
   duplicates; the emitted if-blocks are the syntax tree [code]. *)
From Verif Require Import PyStr.
Open Scope nat_scope.
Open Scope list_scope.

(* ---- Python sets and sorted() ---- *)
Definition mem (x : str) (s : list str) : bool := existsb (str_eqb x) s.
Definition s_add (s : list str) (x : str) : list str := if mem x s then s else s ++ [x].
Definition s_union (s t : list str) : list str := fold_left s_add t s.
Definition s_inter (s t : list str) : list str := List.filter (fun x => mem x t) s.
Definition s_diff (s t : list str) : list str := List.filter (fun x => negb (mem x t)) s.
Definition nonempty {A} (l : list A) : bool := match l with [] => false | _ => true end.

Fixpoint str_leb (a b : str) : bool :=
  match a, b with
  | [], _ => true
  | _ :: _, [] => false
  | x :: a', y :: b' => if Ascii.eqb x y then str_leb a' b' else Nat.leb (code x) (code y)
  end.
Fixpoint insert (x : str) (l : list str) : list str :=
  match l with [] => [x] | y :: t => if str_leb x y then x :: l else y :: insert x t end.
Definition sorted (l : list str) : list str := fold_right insert [] l.

(* ---- collection of the suite's variables, L863-917 ---- *)
Inductive intent := In_ | InOut_ | Out_.
(* one variable of a group's call list.  v_prot is the variable's protected
   property or, failing that, that of the host variable (L878-883); v_init says
   that the group's phase is 'initialize'.  [el] below gives the list
   intrinsic_elements returns ([]: a string, i.e. not a list). *)
Record cvar := mkVar { v_std : str; v_intent : intent; v_prot : bool; v_const : bool; v_init : bool }.

(* leaves, arrays, leaf elements *)
Record vset := mkVS { leaves : list str; arrays : list str; elems : list str }.
Definition vs_empty : vset := mkVS [] [] [].
Definition vs_add (el : str -> list str) (s : vset) (x : str) : vset :=
  if nonempty (el x) then mkVS (leaves s) (s_add (arrays s) x) (s_union (elems s) (el x))
  else mkVS (s_add (leaves s) x) (arrays s) (elems s).

Record coll := mkColl { c_in : vset; c_io : vset; c_out : vset; c_cinit : list str }.
Definition coll_empty : coll := mkColl vs_empty vs_empty vs_empty [].

Definition collect_one (el : str -> list str) (c : coll) (v : cvar) : res coll :=
  let x := v_std v in
  let ci := mem x (c_cinit c) in
  match v_intent v with
  | In_ => Ok (if negb (v_prot v) && negb ci
               then mkColl (vs_add el (c_in c) x) (c_io c) (c_out c) (c_cinit c) else c)
  | InOut_ => Ok (if negb ci then mkColl (c_in c) (vs_add el (c_io c) x) (c_out c) (c_cinit c) else c)
  | Out_ =>
      if v_const v && (negb (v_init v) && negb ci) then Raise "CCPPError: constituent variable cannot be initialized"
      else if v_const v && v_init v then Ok (mkColl (c_in c) (c_io c) (c_out c) (s_add (c_cinit c) x))
      else Ok (mkColl (c_in c) (c_io c) (vs_add el (c_out c) x) (c_cinit c))
  end.
Fixpoint collect (el : str -> list str) (c : coll) (vars : list cvar) : res coll :=
  match vars with
  | [] => Ok c
  | v :: r => c' <- collect_one el c v ;; collect el c' r
  end.

(* ---- generated code ---- *)
Inductive cond := CInOrOut | CIn | COut | CNotIn.
Inductive code_t :=
| Nop | Seq (a b : code_t) | IfC (c : cond) (a : code_t) | IfElems (a b : code_t)
| SetNum (n : nat) | AddNum (n : nat)
| Put (rel : bool) (i : nat) (x : str).       (* variable_list([num_vars +] i) = 'x' *)

Record flags := mkFlags { f_in : bool; f_out : bool; f_elems : bool }.
Definition holds (f : flags) (c : cond) : bool :=
  match c with
  | CInOrOut => f_in f || f_out f
  | CIn => f_in f
  | COut => f_out f
  | CNotIn => negb (f_in f)
  end.
(* num_vars and variable_list; None in the list: element never assigned *)
Record rstate := mkR { r_num : nat; r_list : list (option str) }.
(* None: assignment outside the bounds of variable_list *)
Fixpoint exec (f : flags) (c : code_t) (s : rstate) : option rstate :=
  match c with
  | Nop => Some s
  | Seq a b => match exec f a s with Some s' => exec f b s' | None => None end
  | IfC k a => if holds f k then exec f a s else Some s
  | IfElems a b => if f_elems f then exec f a s else exec f b s
  | SetNum n => Some (mkR n (r_list s))
  | AddNum n => Some (mkR (r_num s + n) (r_list s))
  | Put rel i x =>
      let k := if rel then r_num s + i else i in
      if (1 <=? k) && (k <=? length (r_list s)) then Some (mkR (r_num s) (list_set (r_list s) (k - 1) (Some x)))
      else None
  end.

(* L767-783 write_var_set_loop without allocation *)
Fixpoint put_all (rel : bool) (i : nat) (l : list str) : code_t :=
  match l with [] => Nop | x :: t => Seq (Put rel i x) (put_all rel (S i) t) end.
Definition puts (rel : bool) (i : nat) (l : list str) : code_t := put_all rel i (sorted l).

Definition wrap (b : bool) (c : cond) (body : code_t) : code_t := if b then IfC c body else body.

(* L918-969: the number of variables allocated *)
Definition count (l : list (list str)) : nat := length (fold_left s_union l []).
Definition alloc_size (c : coll) (f : flags) : nat :=
  let i := c_in c in let io := c_io c in let o := c_out c in
  if f_in f && f_out f then
    if (nonempty (elems i) || nonempty (elems io) || nonempty (elems o)) && f_elems f
    then count [leaves i; elems i; leaves io; elems io; leaves o; elems o]
    else count [leaves i; arrays i; leaves io; arrays io; leaves o; arrays o]
  else if f_in f then
    if (nonempty (elems i) || nonempty (elems io)) && f_elems f
    then count [leaves i; elems i; leaves io; elems io]
    else count [leaves i; arrays i; leaves io; arrays io]
  else if f_out f then
    if (nonempty (elems io) || nonempty (elems o)) && f_elems f
    then count [leaves io; elems io; leaves o; elems o]
    else count [leaves io; arrays io; leaves o; arrays o]
  else 0.

(* L970-1116.  The assignments to elem_start/leaf_start in the program text are
   made regardless of the flags of the generated code. *)
Definition emit (c : coll) : code_t :=
  let i := c_in c in let io := c_io c in let o := c_out c in
  (* inout variables, L970-1009 *)
  let lw0 := leaves io in
  let ew0 := leaves io in
  let has_io := nonempty (leaves io) || nonempty (arrays io) || nonempty (elems io) in
  let start1 := 1 + length (leaves io) in
  let elem_list1 := s_diff (elems io) ew0 in
  let ew1 := s_union ew0 (elems io) in
  let leaf_list1 := s_diff (arrays io) lw0 in
  let lw1 := s_union lw0 (arrays io) in
  let two1 := nonempty elem_list1 || nonempty leaf_list1 in
  let elem_start2 := if two1 then start1 + length elem_list1 else start1 in
  let leaf_start2 := if two1 then start1 + length leaf_list1 else start1 in
  let inner1 :=
    if two1 then
      IfElems (Seq (puts false start1 elem_list1) (SetNum (elem_start2 - 1)))
              (Seq (puts false start1 leaf_list1) (SetNum (leaf_start2 - 1)))
    else SetNum (length lw1) in
  let c1 := wrap has_io CInOrOut (Seq (puts false 1 (leaves io)) inner1) in
  (* input variables, L1010-1061 *)
  let leaf_list2 := s_diff (leaves i) lw1 in
  let leaf_cross_set := s_inter (leaves o) (leaves i) in
  let simp_cross_set := s_diff (s_inter (arrays o) (arrays i)) leaf_cross_set in
  let elem_cross_set := s_diff (s_inter (elems o) (elems i)) leaf_cross_set in
  let leaf_cross := s_diff leaf_cross_set lw1 in
  let simp_cross := s_diff simp_cross_set lw1 in
  let elem_cross := s_diff elem_cross_set ew1 in
  let lw2 := s_union lw1 (leaves i) in
  let elem_list2 := s_diff (elems i) ew1 in
  let ew2 := s_union (s_union ew1 (leaves i)) (elems i) in
  let have_inputs := nonempty elem_list2 || nonempty leaf_list2 in
  let leaf_start3 := leaf_start2 + length leaf_list2 in
  let elem_start3 := elem_start2 + length leaf_list2 in
  let leaf_list3 := s_diff (arrays i) lw2 in          (* lw2 is not extended, L1042 *)
  let inner2 :=
    if nonempty elem_list2 || nonempty leaf_list3 then
      IfElems (Seq (puts false elem_start3 elem_list2) (SetNum (elem_start3 + length elem_list2 - 1)))
              (Seq (puts false leaf_start3 leaf_list3) (SetNum (leaf_start3 + length leaf_list3 - 1)))
    else Nop in
  let c2 := wrap have_inputs CIn
              (Seq (puts true 1 leaf_list2)
                 (Seq (if nonempty leaf_list2 then AddNum (length leaf_list2) else Nop) inner2)) in
  (* output variables, L1062-1116 *)
  let leaf_list4 := s_diff (leaves o) lw2 in
  let lw3 := s_union lw2 (leaves o) in
  let ew3 := s_union ew2 (leaves o) in
  let elem_list4 := s_diff (elems o) ew3 in
  let have_outputs := nonempty elem_list4 || nonempty leaf_list4 in
  let start5 := 1 + length leaf_list4 in
  let leaf_list5 := s_diff (arrays o) lw3 in
  let two3 := nonempty elem_list4 || nonempty leaf_list5 in
  let inner3 := if two3 then IfElems (puts true start5 elem_list4) (puts true start5 leaf_list5) else Nop in
  let elem_start6 := if two3 then start5 + length elem_list4 else start5 in
  let leaf_start6 := if two3 then start5 + length leaf_list5 else start5 in
  let cross :=
    if nonempty leaf_cross || nonempty elem_cross then
      IfC CNotIn
        (Seq (puts true leaf_start6 leaf_cross)
           (if nonempty elem_cross || nonempty simp_cross then
              IfElems (puts true (elem_start6 + length leaf_cross) elem_cross)
                      (puts true (leaf_start6 + length leaf_cross) leaf_cross)
            else Nop))
    else Nop in
  let c3 := wrap have_outputs COut (Seq (puts true 1 leaf_list4) (Seq inner3 cross)) in
  Seq c1 (Seq c2 c3).

(* the generated branch of one suite: allocate(variable_list(num_vars)), then fill *)
Definition run_suite (c : coll) (f : flags) : option (list (option str)) :=
  let n := alloc_size c f in
  match exec f (emit c) (mkR n (repeat None n)) with
  | Some s => Some (r_list s)
  | None => None
  end.

(* ccpp_physics_suite_variables for the variables of one suite *)
Definition suite_variables (el : str -> list str) (vars : list cvar) (f : flags) : res (option (list (option str))) :=
  c <- collect el coll_empty vars ;; Ok (run_suite c f).
