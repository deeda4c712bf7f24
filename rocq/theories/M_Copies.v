(* Model of the construction, copy and assignment of states: ChemicalState
   (Reaktoro/Core/ChemicalState.cpp:203-219) and PorousRockState
   (Reaktoro/Extensions/PorousMedia/PorousRockState.cpp).  An object is a pointer
   (pimpl) to a state in memory; memory that is no longer referred to is not
   reused.  The implementation of PorousRockState itself has no data. *)
From Verif Require Import Base M_Units M_System M_State.

Inductive Kind := Chemical | Porous.
(* Memory, and the pointers of the variables of a program. *)
Record Machine := mkMachine { memory : list State; pointer : nat -> option nat }.
Definition start : Machine := mkMachine [] (fun _ => None).
Definition load (m : Machine) (x : nat) : option (nat * State) :=
  match pointer m x with
  | None => None
  | Some a => match nth_error (memory m) a with None => None | Some st => Some (a, st) end
  end.
(* new Impl(...), and the pointer to it. *)
Definition alloc (m : Machine) (st : State) : Machine * nat := (mkMachine (memory m ++ [st]) (pointer m), length (memory m)).
Definition point_to (m : Machine) (x a : nat) : Machine := mkMachine (memory m) (fun y => if Nat.eqb y x then Some a else pointer m y).
Definition store (m : Machine) (a : nat) (st : State) : Machine := mkMachine (upd (memory m) a st) (pointer m).

Section Programs.
Variable ndebug : bool.
Variable sys : ChemicalSystem.

(* ChemicalState.cpp:208-210: the state is copied. *)
Definition copy_chemical (m : Machine) (st : State) : Machine * nat := alloc m st.
(* PorousRockState.cpp:38-40: the base class is constructed from the system. *)
Definition copy_porous (m : Machine) (st : State) : Machine * nat := alloc m (newState sys).
Definition copy (k : Kind) : Machine -> State -> Machine * nat := match k with Chemical => copy_chemical | Porous => copy_porous end.

(* A program: declarations, copies, assignments and calls of setters.  Reading a
   variable that has not been declared has no meaning. *)
Inductive Statement := New (x : nat) | Copy (x y : nat) | Assign (x y : nat) | Call (x : nat) (c : setter).
Definition step (k : Kind) (m : Machine) (s : Statement) : option Machine :=
  match s with
  | New x => let (m1, a) := alloc m (newState sys) in Some (point_to m1 x a)
  | Copy x y => match load m y with None => None | Some (_, st) => let (m1, a) := copy k m st in Some (point_to m1 x a) end
  | Assign x y =>
    match pointer m x, load m y with
    | Some _, Some (_, st) =>
      match k with
      (* ChemicalState.cpp:215-219: the argument is a copy, whose pointer is taken. *)
      | Chemical => let (m1, a) := copy_chemical m st in Some (point_to m1 x a)
      (* PorousRockState.cpp:45-50: the argument is a copy, and the assignment of the
         base class makes another one of that. *)
      | Porous =>
        let (m1, a) := copy_porous m st in
        match nth_error (memory m1) a with
        | None => None
        | Some st1 => let (m2, b) := copy_chemical m1 st1 in Some (point_to m2 x b)
        end
      end
    | _, _ => None
    end
  | Call x c => match load m x with
                | None => None
                | Some (a, st) => match apply ndebug sys c st with (UB, _) => None | (_, st') => Some (store m a st') end
                end
  end.
Fixpoint execute (k : Kind) (m : Machine) (p : list Statement) : option Machine :=
  match p with [] => Some m | s :: p' => match step k m s with None => None | Some m' => execute k m' p' end end.
(* What the program can see of a variable. *)
Definition value_of (m : Machine) (x : nat) : option State := option_map snd (load m x).
End Programs.
