(* Common definitions shared by all models: outcomes of C++ calls and strings. *)
From Coq Require Export Ascii String.
From Coq Require Export Arith ZArith QArith NArith Bool Lia List.
From Coq Require Import ZifyBool ZifyNat ZifyN.
Export ListNotations.
Set Implicit Arguments.
Open Scope list_scope.
Open Scope nat_scope.

(* Outcome of a C++ call.  [Ok a]: returns normally.  [Err]: throws an
   exception (errorif/error/Assert/RuntimeError, std::invalid_argument, ...).
   [UB]: undefined behaviour (out-of-range read, null dereference, endless
   recursion).  The message of an exception is not modelled. *)
Inductive outcome (A : Type) : Type :=
| Ok (a : A)
| Err
| UB.
Arguments Ok {A} a.
Arguments Err {A}.
Arguments UB {A}.

Definition bind {A B} (m : outcome A) (f : A -> outcome B) : outcome B :=
  match m with Ok a => f a | Err => Err | UB => UB end.

Declare Scope outcome_scope.
Notation "x <- m ;; f" := (bind m (fun x => f))
  (at level 61, m at next level, right associativity) : outcome_scope.
Notation "' p <- m ;; f" := (bind m (fun x => let p := x in f))
  (at level 61, p pattern, m at next level, right associativity) : outcome_scope.

Fixpoint mapM {A B} (f : A -> outcome B) (l : list A) : outcome (list B) :=
  match l with
  | [] => Ok []
  | a :: l' => bind (f a) (fun b => bind (mapM f l') (fun bs => Ok (b :: bs)))
  end.

Definition is_ok {A} (m : outcome A) : bool :=
  match m with Ok _ => true | _ => false end.

Definition omap {A B} (f : A -> B) (m : outcome A) : outcome B :=
  bind m (fun a => Ok (f a)).

(* std::string is modelled as a list of 8-bit characters. *)
Definition str := list ascii.
Notation "$ s" := (list_ascii_of_string s%string) (at level 1, format "$ s").

Definition ascii_eqb := Ascii.eqb.

Fixpoint str_eqb (a b : str) : bool :=
  match a, b with
  | [], [] => true
  | x :: a', y :: b' => Ascii.eqb x y && str_eqb a' b'
  | _, _ => false
  end.

Lemma str_eqb_eq (a b : str) : str_eqb a b = true <-> a = b.
Proof.
  revert b; induction a as [|x a IH]; intros [|y b]; cbn [str_eqb]; split; intro H; try congruence; try reflexivity.
  - apply andb_true_iff in H as [H1 H2]. apply Ascii.eqb_eq in H1. apply IH in H2. congruence.
  - injection H as -> ->. rewrite Ascii.eqb_refl. cbn. apply IH; reflexivity.
Qed.

Lemma str_eqb_refl a : str_eqb a a = true.
Proof. apply str_eqb_eq; reflexivity. Qed.

Lemma str_eqb_neq (a b : str) : str_eqb a b = false <-> a <> b.
Proof.
  split; intro H.
  - intros ->. rewrite str_eqb_refl in H; discriminate.
  - destruct (str_eqb a b) eqn:E; auto. apply str_eqb_eq in E; contradiction.
Qed.

Lemma str_eqb_spec a b : reflect (a = b) (str_eqb a b).
Proof.
  destruct (str_eqb a b) eqn:E; constructor.
  - apply str_eqb_eq; assumption.
  - apply str_eqb_neq; assumption.
Qed.

Definition str_eq_dec (a b : str) : {a = b} + {a <> b} := list_eq_dec ascii_dec a b.

(* The <cctype> classification functions in the "C" locale; characters outside
   ASCII are classified as none of these (glibc behaviour). *)
Definition code (c : ascii) : N := N_of_ascii c.
Definition in_range (lo hi : N) (c : ascii) : bool := N.leb lo (code c) && N.leb (code c) hi.
Definition isupper (c : ascii) : bool := in_range 65 90 c.
Definition islower (c : ascii) : bool := in_range 97 122 c.
Definition isdigit (c : ascii) : bool := in_range 48 57 c.
Definition isalpha (c : ascii) : bool := isupper c || islower c.
Definition isspace (c : ascii) : bool := in_range 9 13 c || N.eqb (code c) 32.

Definition digit_val (c : ascii) : Z := Z.of_N (code c) - 48.

(* Longest prefix of characters satisfying [p], with the rest:
   models the std::find_if loops of the parsers. *)
Fixpoint span (p : ascii -> bool) (s : str) : str * str :=
  match s with
  | [] => ([], [])
  | c :: s' => if p c then let (a, b) := span p s' in (c :: a, b) else ([], s)
  end.

Lemma span_app p s : fst (span p s) ++ snd (span p s) = s.
Proof.
  induction s as [|c s IH]; cbn; auto.
  destruct (p c); cbn; auto. destruct (span p s); cbn in *. congruence.
Qed.

Lemma span_all p s : forallb p (fst (span p s)) = true.
Proof.
  induction s as [|c s IH]; cbn; auto.
  destruct (p c) eqn:E; cbn; auto. destruct (span p s); cbn in *. rewrite E; auto.
Qed.

Definition head_sat (p : ascii -> bool) (s : str) : bool :=
  match s with [] => false | c :: _ => p c end.

Lemma span_exact p a b : forallb p a = true -> head_sat p b = false -> span p (a ++ b) = (a, b).
Proof.
  induction a as [|c a IH]; cbn; intros Ha Hb.
  - destruct b as [|d b]; cbn in *; auto. rewrite Hb; auto.
  - apply andb_true_iff in Ha as [H1 H2]. rewrite H1, IH; auto.
Qed.

Lemma span_length p s : List.length (snd (span p s)) <= List.length s.
Proof.
  induction s as [|c s IH]; cbn; auto.
  destruct (p c); cbn; auto. destruct (span p s); cbn in *. lia.
Qed.

Definition last_opt {A} (l : list A) : option A :=
  match rev l with [] => None | a :: _ => Some a end.

Definition mem_str (x : str) (l : list str) : bool := existsb (str_eqb x) l.

Lemma mem_str_In x l : mem_str x l = true <-> In x l.
Proof.
  unfold mem_str. rewrite existsb_exists. split.
  - intros (y & Hy & E). apply str_eqb_eq in E. subst; auto.
  - intros H. exists x. split; auto. apply str_eqb_refl.
Qed.

Lemma mem_str_not_In x l : mem_str x l = false <-> ~ In x l.
Proof.
  rewrite <- mem_str_In. destruct (mem_str x l); split; congruence.
Qed.
