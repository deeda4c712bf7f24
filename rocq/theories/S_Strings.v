(* Specifications for string utilities; nothing here mentions the model. *)
From Verif Require Import Base.

(* [occurs_at sub s k]: the text [sub] occurs in [s] at offset [k]. *)
Definition occurs_at (sub s : str) (k : nat) : Prop :=
  exists a b, s = a ++ sub ++ b /\ length a = k.

(* [Replaced sub new s r]: [r] is [s] with the non-overlapping occurrences of
   [sub], taken from left to right, replaced by [new]. *)
Inductive Replaced (sub new : str) : str -> str -> Prop :=
| Replaced_none : forall s,
    (forall k, ~ occurs_at sub s k) -> Replaced sub new s s
| Replaced_first : forall a b b',
    (forall k, k < length a -> ~ occurs_at sub (a ++ sub ++ b) k) ->
    Replaced sub new b b' ->
    Replaced sub new (a ++ sub ++ b) (a ++ new ++ b').

Definition all_in (delims s : str) : Prop := forall c, In c s -> In c delims.
Definition none_in (delims s : str) : Prop := forall c, In c s -> ~ In c delims.

(* [Tokens delims s ws]: [ws] are the maximal runs of non-delimiters of [s],
   from left to right: delimiters, a word, (end of text or a delimiter), ... *)
Inductive Tokens (delims : str) : str -> list str -> Prop :=
| Tokens_nil : forall ds, all_in delims ds -> Tokens delims ds []
| Tokens_cons : forall ds w rest ws,
    all_in delims ds -> w <> [] -> none_in delims w ->
    (forall c rest', rest = c :: rest' -> In c delims) ->
    Tokens delims rest ws ->
    Tokens delims (ds ++ w ++ rest) (w :: ws).

(* Words written one after the other with a separator between them. *)
Fixpoint intersperse (sep : str) (ws : list str) : str :=
  match ws with
  | [] => []
  | [w] => w
  | w :: ws' => w ++ sep ++ intersperse sep ws'
  end.

(* [k] copies of a text. *)
Fixpoint copies (k : nat) (s : str) : str :=
  match k with O => [] | S k' => copies k' s ++ s end.

(* The text obtained by removing white space at both ends. *)
Definition Trimmed (s t : str) : Prop :=
  exists a b, s = a ++ t ++ b /\
    (forall c, In c a -> isspace c = true) /\ (forall c, In c b -> isspace c = true) /\
    (forall c t', t = c :: t' -> isspace c = false) /\
    (forall c t', t = t' ++ [c] -> isspace c = false).

(* Splitting at a token outside parentheses, by bracket depth: at depth 0 a
   token ends the word, '(' opens a bracket; inside brackets everything is
   copied. *)
Fixpoint bracket_words (token : ascii) (depth : nat) (cur s : str) : list str :=
  match s with
  | [] => [cur]
  | c :: s' =>
    match depth with
    | O => if Ascii.eqb c token then cur :: bracket_words token 0 [] s'
           else bracket_words token (if Ascii.eqb c "("%char then 1 else 0) (cur ++ [c]) s'
    | S d => bracket_words token
               (if Ascii.eqb c "("%char then S (S d) else if Ascii.eqb c ")"%char then d else S d)
               (cur ++ [c]) s'
    end
  end.

(* number of earlier occurrences *)
Definition occ (w : str) (l : list str) : nat := count_occ str_eq_dec l w.

(* no input word is another one followed by copies of the suffix *)
Definition suffix_free (suffix : str) (ws : list str) : Prop :=
  forall u v k, In u ws -> In v ws -> u = v ++ copies (S k) suffix -> False.

(* exact list produced under suffix_free *)
Fixpoint numbered (seen ws : list str) (suffix : str) : list str :=
  match ws with
  | [] => []
  | w :: ws' => (w ++ copies (occ w seen) suffix) :: numbered (seen ++ [w]) ws' suffix
  end.
