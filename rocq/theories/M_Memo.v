(* Memoized functions (Reaktoro/Common/Memoization.hpp), parameters
   (Reaktoro/Core/Param.cpp, Reaktoro/Core/Params.cpp) and model functions
   (Reaktoro/Core/Model.hpp). *)
From Verif Require Import Base M_Algorithms.
Set Implicit Arguments.

(* ---- Memoization.hpp ---- *)
Section Memo.
(* Arguments and results of the memoized function.  Comparison of arguments is
   taken to decide equality; for floating point numbers this ignores that
   0.0 == -0.0 and that NaN differs from itself. *)
Variables A R : Type.
Variable aeqb : A -> A -> bool.
Variables (a0 : A) (r0 : R). (* A() and Ret() *)

(* What a client does: toggle Memoization::enable/disable, or call. *)
Inductive event := Toggle (on : bool) | Call (a : A).

Fixpoint lookup (c : list (A * R)) (a : A) : option R :=
  match c with [] => None | (b, r) :: c' => if aeqb b a then Some r else lookup c' a end.

(* memoize, Memoization.hpp:134-147.  The std::map is an association list.  In
   C++17 f(args...) is evaluated before the cache lookup that inserts, so an exception leaves the
   cache as it was. *)
Definition memoize_call (f : A -> outcome R) (on : bool) (c : list (A * R)) (a : A) : outcome R * list (A * R) :=
  if negb on then (f a, c) else
  match lookup c a with
  | Some r => (Ok r, c)
  | None => match f a with Ok r => (Ok r, (a, r) :: c) | o => (o, c) end
  end.

(* The captured variables of memoizeLast, Memoization.hpp:160-162. *)
Record last := mkLast { l_cache : A; l_result : R; l_first : bool }.
Definition last0 : last := mkLast a0 r0 true.

(* memoizeLast, Memoization.hpp:163-172: the cache is assigned before f is called. *)
Definition memoizeLast_call (f : A -> outcome R) (on : bool) (l : last) (a : A) : outcome R * last :=
  if negb on then (f a, l) else
  if aeqb (l_cache l) a && negb (l_first l) then (Ok (l_result l), l) else
  match f a with
  | Ok r => (Ok r, mkLast a r false)
  | o => (o, mkLast a (l_result l) false)
  end.

(* memoizeLastUsingRef, Memoization.hpp:189-202; res is the incoming value of
   the reference argument and f gives its value on return.  An exception leaves
   the captured variables as they were. *)
Definition memoizeLastUsingRef_call (f : R -> A -> outcome R) (on : bool) (l : last) (res : R) (a : A) : outcome R * last :=
  if negb on then
    match f res a with Ok r => (Ok r, mkLast (l_cache l) (l_result l) false) | o => (o, l) end
  else if aeqb (l_cache l) a && negb (l_first l) then (Ok (l_result l), mkLast (l_cache l) (l_result l) false)
  else match f res a with Ok r => (Ok r, mkLast a r false) | o => (o, l) end.

(* The outputs of a sequence of events, Memoization.cpp:22-47 for the flag,
   which is initially true.  A call returns to the client what `call` gives. *)
Fixpoint run_events {S} (call : bool -> S -> A -> outcome R * S) (on : bool) (s : S) (evs : list event) : list (outcome R) :=
  match evs with
  | [] => []
  | Toggle b :: evs' => run_events call b s evs'
  | Call a :: evs' => let (o, s') := call on s a in o :: run_events call on s' evs'
  end.
End Memo.
Arguments Toggle {A}. Arguments Call {A}.

(* ---- Param, Params and Model ---- *)
Section Params.
Variable V : Type.                       (* real *)
Variable veqb : V -> V -> bool.
Variable v0 : V.                         (* 0.0 *)
Variables A R : Type.                    (* arguments other than parameters, and results, of models *)
Variable aeqb : A -> A -> bool.
Variables (a0 : A) (r0 : R).

(* Param::Impl, Param.cpp:37-53; None is an infinite bound. *)
Record pdata := mkP { p_value : V; p_id : str; p_lower : option V; p_upper : option V; p_const : bool }.
Definition pdata0 : pdata := mkP v0 [] None None false.
Definition set_value (d : pdata) (v : V) : pdata := mkP v (p_id d) (p_lower d) (p_upper d) (p_const d).
Definition set_id (d : pdata) (s : str) : pdata := mkP (p_value d) s (p_lower d) (p_upper d) (p_const d).

(* A Model function object, Model.hpp:198-214: the parameters, the function and
   the captured variables of memoizeLast around it.  Parameters are addresses of
   Param::Impl objects.  The function depends on the arguments and on the
   current values of the parameters. *)
Record model := mkModel {
  m_params : list nat;
  m_fn : A -> list V -> outcome R;
  m_memo : bool;
  m_cacheA : A;
  m_cacheP : list nat;
  m_result : R;
  m_first : bool }.

(* A program state: the Param objects held by the client (as addresses), the
   Param::Impl objects, the Model objects and the memoization flag. *)
Record state := mkState { st_vars : list nat; st_cells : list pdata; st_models : list model; st_on : bool }.
Definition state0 : state := mkState [] [] [] true.

Inductive op :=
| PNew (v : V)                 (* Param p(v);               Param.cpp:59-65 *)
| PCopy (i : nat)              (* Param p = x_i;            shares the Impl *)
| PClone (i : nat)             (* Param p = x_i.clone();    Param.cpp:71-76 *)
| PSet (i : nat) (v : V)       (* x_i = v; x_i.value(v);    Param.cpp:84-89,145-153 *)
| PSetId (i : nat) (s : str)   (* x_i.id(s);                Param.cpp:101-105 *)
| PAssign (i j : nat)          (* x_i.assign(x_j);          Param.cpp:78-82 *)
| PBind (i j : nat)            (* x_i = x_j;                shares the Impl *)
| MNew (ps : list nat) (f : A -> list V -> outcome R) (memo : bool)
                               (* Model(f, {x_i ...}) [.withMemoization()]; Model.hpp:79-93,109-114 *)
| MCopy (m : nat)              (* Model g = models[m];      copies the closure *)
| MEval (m : nat) (a : A)      (* models[m](a);             Model.hpp:124-128 *)
| Enable (b : bool).           (* Memoization::enable/disable *)

Fixpoint update {X} (l : list X) (i : nat) (x : X) : list X :=
  match l, i with
  | [], _ => []
  | _ :: l', O => x :: l'
  | y :: l', S i' => y :: update l' i' x
  end.

Definition cell (cs : list pdata) (a : nat) : pdata := nth a cs pdata0.
Definition values (cs : list pdata) (l : list nat) : list V := map (fun a => p_value (cell cs a)) l.

(* SameValue<Params>, Params.hpp:135-146. *)
Definition same_params (cs : list pdata) (a b : list nat) : outcome bool :=
  if negb (Nat.eqb (length a) (length b)) then Err
  else Ok (forallb (fun xy => veqb (fst xy) (snd xy)) (combine (values cs a) (values cs b))).

(* Params::resize, Params.cpp:52-55: new elements are fresh default Param objects. *)
Definition resize (cs : list pdata) (a : list nat) (n : nat) : list nat * list pdata :=
  if n <=? length a then (firstn n a, cs)
  else (a ++ seq (length cs) (n - length a), cs ++ repeat pdata0 (n - length a)).

(* AssignValue<Params>, Params.hpp:148-157. *)
Fixpoint write_values (cs : list pdata) (a b : list nat) : list pdata :=
  match a, b with
  | x :: a', y :: b' => write_values (update cs x (set_value (cell cs x) (p_value (cell cs y)))) a' b'
  | _, _ => cs
  end.
Definition assign_params (cs : list pdata) (a b : list nat) : list nat * list pdata :=
  let (a', cs') := resize cs a (length b) in (a', write_values cs' a' b).

(* sameValues over the tuple (args..., params), Memoization.hpp:81-95, with its
   short-circuit evaluation. *)
Definition same_values (cs : list pdata) (m : model) (a : A) : outcome bool :=
  if aeqb (m_cacheA m) a then same_params cs (m_cacheP m) (m_params m) else Ok false.

(* Evaluation of a model: the result, the model and the cells afterwards. *)
Definition eval_model (on : bool) (cs : list pdata) (m : model) (a : A) : outcome R * model * list pdata :=
  if negb (m_memo m) || negb on then (m_fn m a (values cs (m_params m)), m, cs) else
  match same_values cs m a with
  | Err => (Err, m, cs)
  | UB => (UB, m, cs)
  | Ok same =>
    if same && negb (m_first m) then (Ok (m_result m), m, cs) else
    let (ps, cs') := assign_params cs (m_cacheP m) (m_params m) in
    match m_fn m a (values cs' (m_params m)) with
    | Ok r => (Ok r, mkModel (m_params m) (m_fn m) true a ps r false, cs')
    | o => (o, mkModel (m_params m) (m_fn m) true a ps (m_result m) false, cs')
    end
  end.

Fixpoint getAll {X} (l : list X) (is : list nat) : option (list X) :=
  match is with
  | [] => Some []
  | i :: is' => match nth_error l i, getAll l is' with Some x, Some r => Some (x :: r) | _, _ => None end
  end.

(* One step; None means that the program text refers to a variable that has not
   been declared.  The output of an evaluation is returned. *)
Definition step (s : state) (o : op) : option (state * option (outcome R)) :=
  let (vs, cs, ms, on) := s in
  match o with
  | PNew v => Some (mkState (vs ++ [length cs]) (cs ++ [set_value pdata0 v]) ms on, None)
  | PCopy i => match nth_error vs i with Some x => Some (mkState (vs ++ [x]) cs ms on, None) | None => None end
  | PClone i => match nth_error vs i with
      | Some x => Some (mkState (vs ++ [length cs]) (cs ++ [cell cs x]) ms on, None) | None => None end
  | PSet i v => match nth_error vs i with
      | Some x => Some (mkState vs (update cs x (set_value (cell cs x) v)) ms on, None) | None => None end
  | PSetId i n => match nth_error vs i with
      | Some x => Some (mkState vs (update cs x (set_id (cell cs x) n)) ms on, None) | None => None end
  | PAssign i j => match nth_error vs i, nth_error vs j with
      | Some x, Some y => Some (mkState vs (update cs x (cell cs y)) ms on, None) | _, _ => None end
  | PBind i j => match nth_error vs i, nth_error vs j with
      | Some _, Some y => Some (mkState (update vs i y) cs ms on, None) | _, _ => None end
  | MNew ps f memo => match getAll vs ps with
      | Some l => Some (mkState vs cs (ms ++ [mkModel l f memo a0 [] r0 true]) on, None) | None => None end
  | MCopy m => match nth_error ms m with Some x => Some (mkState vs cs (ms ++ [x]) on, None) | None => None end
  | MEval m a => match nth_error ms m with
      | Some x => let '(r, x', cs') := eval_model on cs x a in Some (mkState vs cs' (update ms m x') on, Some r)
      | None => None end
  | Enable b => Some (mkState vs cs ms b, None)
  end.
Fixpoint run (s : state) (h : list op) : option state :=
  match h with [] => Some s | o :: h' => match step s o with Some (s', _) => run s' h' | None => None end end.

(* What the client reads through a variable. *)
Definition read (s : state) (i : nat) : option pdata :=
  match nth_error (st_vars s) i with Some x => Some (cell (st_cells s) x) | None => None end.

(* Params::find, index, get, exists: Params.cpp:82-108, on the read parameters. *)
Definition params_find (l : list pdata) (id : str) : nat := indexfn l (fun x => str_eqb (p_id x) id).
Definition params_get (l : list pdata) (id : str) : outcome pdata :=
  match nth_error l (params_find l id) with Some d => Ok d | None => Err end.
Definition params_exists (l : list pdata) (id : str) : bool := containsfn l (fun x => str_eqb (p_id x) id).
End Params.
Arguments mkP {V}. Arguments mkModel {V A R}. Arguments mkState {V A R}.
Arguments PNew {V A R}. Arguments PCopy {V A R}. Arguments PClone {V A R}. Arguments PSet {V A R}. Arguments PSetId {V A R}.
Arguments PAssign {V A R}. Arguments PBind {V A R}. Arguments MNew {V A R}. Arguments MCopy {V A R}. Arguments MEval {V A R}.
Arguments Enable {V A R}. Arguments state0 {V A R}.
