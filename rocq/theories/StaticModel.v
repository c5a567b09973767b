(* StaticModel.v: the caps that ccpp_prebuild.py generates for a static build, and their
   execution.  The first half models scripts/mkstatic.py (Group.write, Suite.write,
   API.write) down to the statements that decide which scheme routines are called; the
   second half gives these statements their Fortran meaning.
   Left out: argument lists (C82), temporary variables and pointers (C83-C85), the
   module and file text.  Instance numbers stay inside the bounds of "initialized"
   (1..200, common.py L78). *)
From Verif Require Import PyStr.
From Coq Require Import ZArith Lia.
Open Scope nat_scope.
Open Scope list_scope.

(* common.py L15-20, CCPP_STAGES, in the order of the dictionary *)
Inductive stage := TsInit | TsFinal | Init | Run | Final.
Definition stages : list stage := [TsInit; TsFinal; Init; Run; Final].
Definition stage_eqb (a b : stage) : bool :=
  match a, b with
  | TsInit, TsInit | TsFinal, TsFinal | Init, Init | Run, Run | Final, Final => true
  | _, _ => false
  end.
Definition stage_name (s : stage) : str :=
  match s with
  | TsInit => L "timestep_init" | TsFinal => L "timestep_finalize"
  | Init => L "init" | Run => L "run" | Final => L "finalize"
  end.

(* mkstatic.py Subcycle L2080-2110, Group L926 (attributes init, finalize), Suite L602 *)
Record subcycle := mkSub { sc_loop : Z; sc_schemes : list str }.
Inductive gkind := GRegular | GInit | GFinalize.
Record group := mkGroup { g_name : str; g_kind : gkind; g_subs : list subcycle }.
Record suite := mkSuite { s_name : str; s_groups : list group }.

(* the statements of a group function: Group.initialized_test_blocks L985-1009,
   initialized_set_blocks L1011-1021, subcycle code L1862-1897, call and error check
   L1836-1853 *)
Inductive stmt :=
| ReturnIfInitialized                   (* if (initialized(i)) return *)
| ReturnUnlessInitialized               (* if (.not.initialized(i)) return *)
| ErrorUnlessInitialized (s : stage)    (* if (.not.initialized(i)) then write(errmsg); errflg = 1; return *)
| SetExtent (k : Z)                     (* loop_extent = k *)
| SetCounter1                           (* loop_cnt = 1 *)
| DoLoop (k : Z) (calls : list str)     (* associate(cnt => loop_cnt); do cnt=1,k; calls; end do *)
| CallScheme (name : str)               (* call name_stage(...); if (errflg/=0) then errmsg = ...; ierr=errflg; return *)
| SetInitialized                        (* initialized(i) = .true. *)
| ClearInitialized.                     (* initialized = .false. *)

Section Gen.
(* [has sch s]: the routine sch_s exists and has a non-empty argument table, the test of
   L1106 *)
Variable has : str -> stage -> bool.

(* the schemes of a subcycle that get a call, L1093-1107 *)
Definition called (s : stage) (names : list str) : list str := List.filter (fun n => has n s) names.
(* one subcycle, L1091-1901.  self.parents[stage] is not empty as soon as one scheme is
   called (every argument has a parent variable, L1287), so the loop variables are always
   set where subcycle_body is not empty *)
Definition gen_subcycle (s : stage) (c : subcycle) : list stmt :=
  match called s (sc_schemes c) with
  | [] => []
  | cs =>
      SetExtent (if stage_eqb s Run then sc_loop c else 1%Z)
      :: (if (1 <? sc_loop c)%Z && stage_eqb s Run then [DoLoop (sc_loop c) cs]
          else SetCounter1 :: map CallScheme cs)
  end.
(* the group has arguments in this stage: some scheme is called, L1921 *)
Definition has_args (s : stage) (g : group) : bool :=
  existsb (fun c => existsb (fun n => has n s) (sc_schemes c)) (g_subs g).
(* L1921-1934 with the blocks of L985-1021; for the stage init the ccpp_t variable is
   added to an empty argument list (L1907-1909) *)
Definition test_block (s : stage) (g : group) : list stmt :=
  match s with
  | Init => [ReturnIfInitialized]
  | Final => if has_args s g then [ReturnUnlessInitialized] else []
  | _ => if has_args s g then [ErrorUnlessInitialized s] else []
  end.
Definition set_block (s : stage) : list stmt :=
  match s with Init => [SetInitialized] | Final => [ClearInitialized] | _ => [] end.
(* Group.write L1067-1943, the function of one stage *)
Definition gen_group (s : stage) (g : group) : list stmt :=
  test_block s g ++ flat_map (gen_subcycle s) (g_subs g) ++ set_block s.

(* the special groups exist in their stage only: L1069-1072 (Group.write), L863-866
   (Suite.write) and L409-411 (API.write) *)
Definition in_stage (s : stage) (g : group) : bool :=
  match g_kind g with
  | GRegular => true
  | GInit => stage_eqb s Init
  | GFinalize => stage_eqb s Final
  end.
End Gen.

(* what the host model sees *)
Inductive event :=
| ECall (scheme : str) (s : stage) (inst counter extent : Z)  (* a scheme routine is entered *)
| EDone (suite group : str) (s : stage) (inst : Z).           (* a group function has run to its end *)
Record state := mkState {
  st_init : str -> str -> Z -> bool;   (* the module variable "initialized" of each group cap *)
  st_flag : Z;                         (* cdata%errflg *)
  st_msg : str;                        (* cdata%errmsg *)
  st_cnt : Z;                          (* cdata%loop_cnt *)
  st_ext : Z;                          (* the loop extent variable *)
  st_log : list event }.

Definition upd_init (f : str -> str -> Z -> bool) (sn gn : str) (h : Z -> bool -> bool) : str -> str -> Z -> bool :=
  fun a b i => if str_eqb a sn && str_eqb b gn then h i (f a b i) else f a b i.
Definition log_event (e : event) (st : state) : state :=
  mkState (st_init st) (st_flag st) (st_msg st) (st_cnt st) (st_ext st) (st_log st ++ [e]).
Definition set_cnt (k : Z) (st : state) : state :=
  mkState (st_init st) (st_flag st) (st_msg st) k (st_ext st) (st_log st).
Definition set_ext (k : Z) (st : state) : state :=
  mkState (st_init st) (st_flag st) (st_msg st) (st_cnt st) k (st_log st).
Definition set_err (e : Z) (m : str) (st : state) : state :=
  mkState (st_init st) e m (st_cnt st) (st_ext st) (st_log st).
Definition set_initd (f : str -> str -> Z -> bool) (st : state) : state :=
  mkState f (st_flag st) (st_msg st) (st_cnt st) (st_ext st) (st_log st).

Section Exec.
Variable has : str -> stage -> bool.
(* the error code and message a scheme routine leaves behind, as a function of everything
   that happened before *)
Variable behaves : list event -> str -> stage -> Z -> Z * str.

(* what a group function has done: fallen through, or returned this value *)
Definition outcome := (state * option Z)%type.

(* mkstatic.py L1836-1853 *)
Definition exec_call (s : stage) (inst : Z) (n : str) (st : state) : outcome :=
  let '(e, m) := behaves (st_log st) n s inst in
  let st1 := log_event (ECall n s inst (st_cnt st) (st_ext st)) st in
  if (e =? 0)%Z then (set_err e m st1, None)
  else (set_err e (L "An error occured in " ++ n ++ L "_" ++ stage_name s ++ L ": " ++ rstrip m) st1, Some e).
Fixpoint exec_calls (s : stage) (inst : Z) (ns : list str) (st : state) : outcome :=
  match ns with
  | [] => (st, None)
  | n :: t => match exec_call s inst n st with
              | (st1, None) => exec_calls s inst t st1
              | r => r
              end
  end.
(* a Fortran do loop with [todo] iterations left; the do variable ends one past the limit *)
Fixpoint exec_loop (s : stage) (inst : Z) (ns : list str) (k : Z) (todo : nat) (st : state) : outcome :=
  match todo with
  | 0 => (set_cnt k st, None)
  | S t => match exec_calls s inst ns (set_cnt k st) with
           | (st1, None) => exec_loop s inst ns (k + 1) t st1
           | r => r
           end
  end.
Definition exec_stmt (sn gn : str) (s : stage) (inst : Z) (c : stmt) (st : state) : outcome :=
  match c with
  | ReturnIfInitialized => if st_init st sn gn inst then (st, Some 0%Z) else (st, None)
  | ReturnUnlessInitialized => if st_init st sn gn inst then (st, None) else (st, Some 0%Z)
  | ErrorUnlessInitialized s' =>
      if st_init st sn gn inst then (st, None)
      else (set_err 1 (gn ++ L "_" ++ stage_name s' ++ L " called before " ++ gn ++ L "_init") st, Some 0%Z)
  | SetExtent k => (set_ext k st, None)
  | SetCounter1 => (set_cnt 1 st, None)
  | DoLoop k ns => exec_loop s inst ns 1 (Z.to_nat k) st
  | CallScheme n => exec_call s inst n st
  | SetInitialized => (set_initd (upd_init (st_init st) sn gn (fun i b => if (i =? inst)%Z then true else b)) st, None)
  | ClearInitialized => (set_initd (upd_init (st_init st) sn gn (fun _ _ => false)) st, None)
  end.
Fixpoint exec (sn gn : str) (s : stage) (inst : Z) (cs : list stmt) (st : state) : outcome :=
  match cs with
  | [] => (st, None)
  | c :: t => match exec_stmt sn gn s inst c st with
              | (st1, None) => exec sn gn s inst t st1
              | r => r
              end
  end.
(* Group.sub L954-977: ierr is 0 unless an error check returns something else *)
Definition group_fn (sn : str) (s : stage) (inst : Z) (g : group) (st : state) : state * Z :=
  match exec sn (g_name g) s inst (gen_group has s g) st with
  | (st1, Some e) => (st1, e)
  | (st1, None) => (log_event (EDone sn (g_name g) s inst) st1, 0%Z)
  end.
(* Suite.write L861-875: the groups of the stage one after the other,
   "if (ierr/=0) return" *)
Fixpoint groups_fn (sn : str) (s : stage) (inst : Z) (gs : list group) (st : state) : state * Z :=
  match gs with
  | [] => (st, 0%Z)
  | g :: t => if in_stage s g then
                let '(st1, e) := group_fn sn s inst g st in
                if (e =? 0)%Z then groups_fn sn s inst t st1 else (st1, e)
              else groups_fn sn s inst t st
  end.
Definition suite_fn (s : stage) (inst : Z) (u : suite) (st : state) : state * Z :=
  groups_fn (s_name u) s inst (s_groups u) st.

(* trim(name)=="literal": Fortran comparison ignores trailing blanks on both sides *)
Definition rtrim (x : str) : str := rev (dropwhile (Ascii.eqb " ") (rev x)).
Definition f_eq (x lit : str) : bool := str_eqb (rtrim x) (rtrim lit).

(* API.write L405-428: the if / else if chain over the groups of the stage *)
Fixpoint group_switch (sn : str) (s : stage) (inst : Z) (gn : str) (gs : list group) (st : state) : state * Z :=
  match gs with
  | [] => (set_err (st_flag st) (L "Group " ++ rtrim gn ++ L " not found") st, 1%Z)
  | g :: t => if in_stage s g && f_eq gn (g_name g) then group_fn sn s inst g st
              else group_switch sn s inst gn t st
  end.
(* API.write L402-453: the chain over the suites *)
Fixpoint suite_switch (s : stage) (inst : Z) (un : str) (gn : option str) (us : list suite) (st : state) : state * Z :=
  match us with
  | [] => (set_err (st_flag st) (L "Invalid suite " ++ rtrim un) st, 1%Z)
  | u :: t => if f_eq un (s_name u) then
                match gn with
                | Some x => group_switch (s_name u) s inst x (s_groups u) st
                | None => suite_fn s inst u st
                end
              else suite_switch s inst un gn t st
  end.
(* API.sub L293-317: ccpp_physics_<stage>(cdata, suite_name, group_name, ierr) *)
Definition api_call (us : list suite) (s : stage) (inst : Z) (un : str) (gn : option str) (st : state) : state * Z :=
  let '(st1, e) := suite_switch s inst un gn us st in
  (set_err e (st_msg st1) st1, e).

(* a run of the host model: calls of the API one after the other, for any instance *)
Record call := mkCall { c_stage : stage; c_inst : Z; c_suite : str; c_group : option str }.
Definition do_call (us : list suite) (c : call) (st : state) : state * Z :=
  api_call us (c_stage c) (c_inst c) (c_suite c) (c_group c) st.
Fixpoint history (us : list suite) (cs : list call) (st : state) : state :=
  match cs with [] => st | c :: t => history us t (fst (do_call us c st)) end.
End Exec.

(* "logical, dimension(200), save :: initialized = .false.", mkstatic.py L948 *)
Definition start (flag : Z) (msg : str) (cnt ext : Z) : state :=
  mkState (fun _ _ _ => false) flag msg cnt ext [].

(* API.write L405-428: the clauses of the generated chain over group names; None is the
   final branch "else ... not found" *)
Definition group_clauses (s : stage) (gs : list group) : list (str * option str) :=
  fold_left (fun acc g => if in_stage s g
                          then acc ++ [(match acc with [] => L "if" | _ => L "else if" end, Some (g_name g))]
                          else acc) gs []
  ++ [(L "else", None)].
