(* What a document says about its species, independently of how it is read. *)
From Verif Require Import Base M_System M_Supcrt.
(* The text at a path below an element: at each step the first element of that name. *)
Inductive First (name : str) : list xml -> xml -> Prop :=
| first_here : forall n l, x_name n = name -> First name (n :: l) n
| first_later : forall n l m, x_name n <> name -> First name l m -> First name (n :: l) m.
Inductive TextAt : xml -> list str -> str -> Prop :=
| text_here : forall a t l, TextAt (Elt a (Some t) l) [] t
| text_below : forall a t l c n p s, First c l n -> TextAt n p s -> TextAt (Elt a t l) (c :: p) s.
Definition HKF (k : str) : list str := [$"Thermo"; $"HKF"; k].
Definition InRange (i : str) (k : str) : list str := [$"Thermo"; $"HKF"; $"TemperatureRange" ++ i; k].
(* A composition written as Al(2)Si(2)O(9)H(4). *)
Definition word (w : str) : Prop := w <> [] /\ ~ In "("%char w /\ ~ In ")"%char w.
Inductive Composition : str -> list (str * str) -> Prop :=
| composition_none : Composition [] []
| composition_more : forall s c t l, word s -> word c -> Composition t l -> Composition (s ++ $"(" ++ c ++ $")" ++ t) ((s, c) :: l).
(* The kinds of species, and the numbers that each needs. *)
Inductive Kind := Water | AqueousSolute | Gaseous | MineralKind.
Inductive KindOf (n : xml) : Kind -> Prop :=
| kind_water : forall t, TextAt n [$"Type"] t -> In t [$"Aqueous"; $"aqueous"] -> TextAt n [$"Formula"] $"H2O" -> KindOf n Water
| kind_solute : forall t f, TextAt n [$"Type"] t -> In t [$"Aqueous"; $"aqueous"] -> TextAt n [$"Formula"] f -> f <> $"H2O" -> KindOf n AqueousSolute
| kind_gas : forall t, TextAt n [$"Type"] t -> In t [$"Gaseous"; $"gaseous"] -> KindOf n Gaseous
| kind_mineral : forall t, TextAt n [$"Type"] t -> In t [$"Mineral"; $"mineral"] -> KindOf n MineralKind.
Definition state_of (k : Kind) : AggregateState := match k with Water | AqueousSolute => Aqueous | Gaseous => Gas | MineralKind => Solid end.
Section Says.
Variable number : str -> Q.
Variable integer : str -> Z.
(* The document gives the number v at the path p. *)
Definition Says (n : xml) (p : list str) (v : Q) : Prop := exists t, TextAt n p t /\ v = number t.
Definition SaysOr (n : xml) (p : list str) (default v : Q) : Prop := Says n p v \/ ((forall t, ~ TextAt n p t) /\ v = default).
(* One entry per temperature range. *)
Definition Ranges (n : xml) (k : str) (l : list Q) : Prop := forall i v, nth_error l i = Some v -> Says n (InRange (M_Chem.N_to_string (N.of_nat i)) k) v.
Definition RangesOr (n : xml) (k : str) (l : list Q) : Prop := forall i v, nth_error l i = Some v -> SaysOr n (InRange (M_Chem.N_to_string (N.of_nat i)) k) 0 v.
Definition AllSaid {P} (n : xml) (p : P) (l : list (str * (P -> Q))) : Prop := forall k f, In (k, f) l -> Says n (HKF k) (f p).
Inductive Parameters (n : xml) : Kind -> Params -> Prop :=
| parameters_water : Parameters n Water Solvent
| parameters_solute : forall p : Solute Q, TextAt n [$"Name"] (so_name p) -> Says n [$"Charge"] (so_charge p) ->
    AllSaid n p [($"Gf", so_Gf); ($"Hf", so_Hf); ($"Sr", so_Sr); ($"a1", so_a1); ($"a2", so_a2); ($"a3", so_a3); ($"a4", so_a4); ($"c1", so_c1); ($"c2", so_c2); ($"wref", so_wref)] ->
    Parameters n AqueousSolute (SoluteOf p)
| parameters_gas : forall p : MaierKelly Q, TextAt n [$"Name"] (ga_name p) ->
    AllSaid n p [($"Gf", ga_Gf); ($"Hf", ga_Hf); ($"Sr", ga_Sr); ($"a", ga_a); ($"b", ga_b); ($"c", ga_c); ($"Tmax", ga_Tmax)] ->
    Parameters n Gaseous (GasOf p)
| parameters_mineral : forall (p : Mineral Q) t, TextAt n [$"Name"] (mn_name p) ->
    AllSaid n p [($"Gf", mn_Gf); ($"Hf", mn_Hf); ($"Sr", mn_Sr); ($"Vr", mn_Vr); ($"Tmax", mn_Tmax)] ->
    TextAt n (HKF $"NumPhaseTrans") t -> integer t = Z.of_nat (mn_nptrans p) ->
    length (mn_a p) = S (mn_nptrans p) -> length (mn_b p) = S (mn_nptrans p) -> length (mn_c p) = S (mn_nptrans p) ->
    length (mn_Ttr p) = mn_nptrans p -> length (mn_Htr p) = mn_nptrans p -> length (mn_Vtr p) = mn_nptrans p -> length (mn_dPdTtr p) = mn_nptrans p ->
    (mn_nptrans p = 0 -> exists a b c, mn_a p = [a] /\ mn_b p = [b] /\ mn_c p = [c] /\ Says n (HKF $"a") a /\ Says n (HKF $"b") b /\ Says n (HKF $"c") c) ->
    (mn_nptrans p <> 0 -> Ranges n $"a" (mn_a p) /\ Ranges n $"b" (mn_b p) /\ Ranges n $"c" (mn_c p) /\ Ranges n $"Ttr" (mn_Ttr p) /\
       RangesOr n $"Htr" (mn_Htr p) /\ RangesOr n $"Vtr" (mn_Vtr p) /\ RangesOr n $"dPdTtr" (mn_dPdTtr p)) ->
    Parameters n MineralKind (MineralOf p).
(* A species and its parameters are what the document says. *)
Definition Described (n : xml) (s : Species) (p : Params) : Prop :=
  exists k e l, KindOf n k /\ TextAt n [$"Name"] (name s) /\ TextAt n [$"Formula"] (sp_formula s) /\
  TextAt n [$"Elements"] e /\ Composition e l /\ map (fun x => (el_symbol (fst x), snd x)) (sp_elements s) = map (fun x => (fst x, number (snd x))) l /\
  SaysOr n [$"Charge"] 0 (sp_charge s) /\ sp_state s = state_of k /\ Parameters n k p.
End Says.
(* The elements of a name, in their order, and the species of a document. *)
Inductive Selected (name : str) : list xml -> list xml -> Prop :=
| selected_none : Selected name [] []
| selected_yes : forall n l r, x_name n = name -> Selected name l r -> Selected name (n :: l) (n :: r)
| selected_no : forall n l r, x_name n <> name -> Selected name l r -> Selected name (n :: l) r.
Inductive SpeciesOf : xml -> list xml -> Prop :=
| species_of : forall a t l b u m ns, First $"Database" l (Elt b u m) -> Selected $"Species" m ns -> SpeciesOf (Elt a t l) ns.
(* Three lists, element by element. *)
Inductive Together {A B C} (P : A -> B -> C -> Prop) : list A -> list B -> list C -> Prop :=
| together_none : Together P [] [] []
| together_more : forall a b c la lb lc, P a b c -> Together P la lb lc -> Together P (a :: la) (b :: lb) (c :: lc).
(* The elements of a species are among those that are known. *)
Definition Known (elements : list Element) (s : Species) : Prop := forall x, In x (sp_elements s) -> In (el_symbol (fst x)) (map el_symbol elements).
(* A document that says everything: all numbers that are needed, compositions of known
   elements, and different names. *)
Definition CompleteNode (number : str -> Q) (integer : str -> Z) (elements : list Element) (n : xml) : Prop :=
  exists s p, Described number integer n s p /\ Known elements s /\ name s <> [].
Definition DistinctNames (ns : list xml) : Prop := forall i j n m t, nth_error ns i = Some n -> nth_error ns j = Some m -> TextAt n [$"Name"] t -> TextAt m [$"Name"] t -> i = j.
