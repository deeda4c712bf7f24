(* Model of Reaktoro/Common/Algorithms.hpp. *)
From Verif Require Import Base.

Section Algorithms.
Variable A : Type.
Variable eqb : A -> A -> bool.   (* operator== of the items *)
Variable ltb : A -> A -> bool.   (* operator<  of the items *)

(* Algorithms.hpp:31-36 and 38-43: distance from begin() to the iterator found,
   end() when there is none. *)
Fixpoint indexfn (c : list A) (pred : A -> bool) : nat :=
  match c with
  | [] => 0
  | x :: c' => if pred x then 0 else S (indexfn c' pred)
  end.
Definition index (c : list A) (x : A) : nat := indexfn c (fun y => eqb y x).

(* Algorithms.hpp:45-52, std::copy_if into a back_inserter. *)
Definition filter (c : list A) (pred : A -> bool) : list A :=
  fold_left (fun res x => if pred x then res ++ [x] else res) c [].
(* Algorithms.hpp:54-59. *)
Definition remove (c : list A) (pred : A -> bool) : list A := filter c (fun x => negb (pred x)).

(* std::sort, modelled by insertion: the standard only promises a sorted
   permutation, which is unique for a total order with eqb as equality. *)
Fixpoint insert (x : A) (l : list A) : list A :=
  match l with
  | [] => [x]
  | y :: l' => if ltb x y then x :: l else y :: insert x l'
  end.
Definition sort (l : list A) : list A := fold_right insert [] l.
(* std::unique followed by erase: drops an item equal to the last one kept. *)
Fixpoint dedup_from (last : A) (l : list A) : list A :=
  match l with
  | [] => []
  | x :: l' => if eqb last x then dedup_from last l' else x :: dedup_from x l'
  end.
Definition dedup (l : list A) : list A :=
  match l with [] => [] | x :: l' => x :: dedup_from x l' end.
(* Algorithms.hpp:61-69. *)
Definition unique (c : list A) : list A := dedup (sort c).

(* Algorithms.hpp:79-88, extract: a[i] out of range is UB. *)
Fixpoint extract (a : list A) (indices : list nat) : outcome (list A) :=
  match indices with
  | [] => Ok []
  | i :: is => match nth_error a i with
               | None => UB
               | Some x => omap (cons x) (extract a is)
               end
  end.

(* Algorithms.hpp:102-107 and 109-114. *)
Definition containsfn (c : list A) (pred : A -> bool) : bool :=
  negb (length c =? 0) && negb (indexfn c pred =? length c).
Definition contains (c : list A) (x : A) : bool := containsfn c (fun y => eqb y x).

(* Algorithms.hpp:116-124. *)
Fixpoint contained (a b : list A) : bool :=
  match a with
  | [] => true
  | x :: a' => if negb (contains b x) then false else contained a' b
  end.
(* Algorithms.hpp:126-133. *)
Definition concatenate (a b : list A) : list A := a ++ b.
(* Algorithms.hpp:135-144. *)
Definition merge (a b : list A) : list A := dedup (sort (a ++ b)).
(* Algorithms.hpp:146-151 and 153-158. *)
Definition intersect (a b : list A) : list A := filter a (fun x => contains b x).
Definition difference (a b : list A) : list A := filter a (fun x => negb (contains b x)).
(* Algorithms.hpp:160-168. *)
Fixpoint disjoint (a b : list A) : bool :=
  match a with
  | [] => true
  | x :: a' => if contains b x then false else disjoint a' b
  end.
(* Algorithms.hpp:170-175. *)
Definition identical (a b : list A) : bool := contained a b && contained b a.

(* Algorithms.hpp:203-210, oneof: the arguments x0, xs... as a list. *)
Fixpoint oneof (x : A) (x0 : A) (xs : list A) : bool :=
  match xs with
  | [] => eqb x x0
  | x1 :: xs' => eqb x x0 || oneof x x1 xs'
  end.
End Algorithms.
Arguments indexfn {A}. Arguments index {A}. Arguments filter {A}. Arguments remove {A}. Arguments insert {A}.
Arguments sort {A}. Arguments dedup_from {A}. Arguments dedup {A}. Arguments unique {A}. Arguments extract {A}.
Arguments containsfn {A}. Arguments contains {A}. Arguments contained {A}. Arguments concatenate {A}.
Arguments merge {A}. Arguments intersect {A}. Arguments difference {A}. Arguments disjoint {A}.
Arguments identical {A}. Arguments oneof {A}.

(* Algorithms.hpp:71-77 and 90-100, vectorize through transform on a result of
   the same size. *)
Definition vectorize {A B} (c : list A) (f : A -> B) : list B := map f c.

(* Algorithms.hpp:177-187, range for an integer type: C++ division truncates,
   division by zero is UB, and the cast to std::size_t wraps; a size that
   cannot be allocated (2^62 here) makes std::vector throw.  Overflow of the
   item type is not modelled. *)
Definition range (first last step : Z) : outcome (list Z) :=
  if (last <=? first)%Z then Ok []
  else if (step =? 0)%Z then UB
  else
    let size := (((Z.quot (last - first - 1) step) mod 2 ^ 64 + 1) mod 2 ^ 64)%Z in
    if (2 ^ 62 <=? size)%Z then Err
    else Ok (map (fun i => first + Z.of_nat i * step)%Z (seq 0 (Z.to_nat size))).
(* Algorithms.hpp:189-194 and 196-201. *)
Definition range2 (first last : Z) : outcome (list Z) := range first last 1.
Definition range1 (last : Z) : outcome (list Z) := range 0 last 1.

(* Algorithms.hpp:212-221 and 223-228, sum over f(ibegin) ... f(iend-1). *)
Definition sum {T} (zero : T) (add : T -> T -> T) (ibegin iend : nat) (f : nat -> T) : T :=
  fold_left (fun res i => add res (f i)) (seq ibegin (iend - ibegin)) zero.
