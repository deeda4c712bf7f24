(* Species whose memoized properties depend on parameters and on other species
   (Core/Species.cpp, Core/FormationReaction.cpp, Core/Model.hpp). *)
From Verif Require Import Base.
Set Implicit Arguments.

Section Species.
Variables V A X : Type.            (* parameter values, (T,P), standard properties *)
Variable veqb : V -> V -> bool.
Variable aeqb : A -> A -> bool.
Variable v0 : V.

(* What Species::props evaluates.  Parameters are addresses of Param objects and
   reactants are numbers of earlier species: copies of a Species object share its
   memory (Species.hpp:177-181), so an object is known by its number.
   Direct: a model made from parameters, Species.cpp:215-220.
   ByReaction: FormationReaction.cpp:46-106; the parameters of the model are those
   of the reaction and of the volume model (line 62), not those of the reactants. *)
Inductive kind :=
| Direct (params : list nat) (fn : A -> list V -> X)
| ByReaction (reactants : list nat) (params : list nat) (fn : A -> list X -> list V -> X).
Definition own_params (k : kind) : list nat := match k with Direct ps _ => ps | ByReaction _ ps _ => ps end.

(* The captured variables of memoizeLast around one model, Memoization.hpp:160-172;
   None before the first call.  (That a first call is compared with default values
   is modelled in M_Memo.v.) *)
Definition memo := option (A * list V * X).

Definition values_of (cells : list V) (ps : list nat) : list V := map (fun p => nth p cells v0) ps.
Fixpoint list_eqb (l m : list V) : bool :=
  match l, m with
  | [], [] => true
  | x :: l', y :: m' => veqb x y && list_eqb l' m'
  | _, _ => false
  end.
Fixpoint set_nth {B} (l : list B) (i : nat) (x : B) : list B :=
  match l, i with
  | [], _ => []
  | _ :: l', O => x :: l'
  | y :: l', S i' => y :: set_nth l' i' x
  end.

(* FormationReaction.cpp:67-72: the reactants one after the other. *)
Fixpoint eval_all (ev : list memo -> nat -> A -> outcome (X * list memo)) (ms : list memo) (rs : list nat) (a : A) : outcome (list X * list memo) :=
  match rs with
  | [] => Ok ([], ms)
  | r :: rs' => bind (ev ms r a) (fun '(x, ms') => bind (eval_all ev ms' rs' a) (fun '(xs, ms'') => Ok (x :: xs, ms'')))
  end.
(* Species::props, Species.cpp:297-300, through Model.hpp:124-128 and the memoized
   function.  A species that does not exist, or refers to itself, is UB. *)
Fixpoint eval (kinds : list kind) (on : bool) (cells : list V) (n : nat) (ms : list memo) (i : nat) (a : A) : outcome (X * list memo) :=
  match n with
  | O => UB
  | S n' =>
    match nth_error kinds i with
    | None => UB
    | Some k =>
      let vs := values_of cells (own_params k) in
      let hit := if on then
          match nth i ms None with
          | Some (a', vs', x) => if aeqb a' a && list_eqb vs' vs then Some x else None
          | None => None
          end
        else None in
      match hit with
      | Some x => Ok (x, ms)
      | None =>
        bind (match k with
              | Direct _ f => Ok (f a vs, ms)
              | ByReaction rs _ f => bind (eval_all (eval kinds on cells n') ms rs a) (fun '(xs, ms') => Ok (f a xs vs, ms'))
              end)
          (fun '(x, ms') => Ok (x, if on then set_nth ms' i (Some (a, vs, x)) else ms'))
      end
    end
  end.

(* A client: changes a parameter, switches memoization, asks for properties. *)
Inductive event := SetParam (p : nat) (v : V) | Switch (b : bool) | Ask (i : nat) (a : A).
Record world := mkWorld { w_cells : list V; w_memos : list memo; w_on : bool }.
Definition happen (kinds : list kind) (w : world) (e : event) : outcome (option X * world) :=
  match e with
  | SetParam p v => Ok (None, mkWorld (set_nth (w_cells w) p v) (w_memos w) (w_on w))
  | Switch b => Ok (None, mkWorld (w_cells w) (w_memos w) b)
  | Ask i a => bind (eval kinds (w_on w) (w_cells w) (length kinds) (w_memos w) i a) (fun '(x, ms) =>
      Ok (Some x, mkWorld (w_cells w) ms (w_on w)))
  end.
Fixpoint history (kinds : list kind) (w : world) (es : list event) : outcome world :=
  match es with [] => Ok w | e :: es' => bind (happen kinds w e) (fun '(_, w') => history kinds w' es') end.
Definition start (kinds : list kind) (cells : list V) : world := mkWorld cells (repeat None (length kinds)) true.
End Species.
