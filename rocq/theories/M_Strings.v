(* Model of Reaktoro/Common/StringUtils.hpp and Reaktoro/Common/StringList.cpp. *)
From Verif Require Import Base.

(* ---------------------------------------------------------------- replace *)

Fixpoint is_prefix (p s : str) : bool :=
  match p, s with
  | [], _ => true
  | x :: p', y :: s' => Ascii.eqb x y && is_prefix p' s'
  | _ :: _, [] => false
  end.

(* std::string::find(sub) on a suffix of the string: smallest offset at which
   [sub] is a prefix. *)
Fixpoint find_sub (sub s : str) : option nat :=
  if is_prefix sub s then Some 0
  else match s with
       | [] => None
       | _ :: s' => option_map S (find_sub sub s')
       end.

(* std::string::find(sub, pos): npos when pos > size. *)
Definition find_from (sub s : str) (pos : nat) : option nat :=
  if Nat.ltb (length s) pos then None
  else option_map (Nat.add pos) (find_sub sub (skipn pos s)).

(* Reaktoro/Common/StringUtils.hpp:79-83, the while loop of replace.  [pos] is
   the variable pos (None = npos).  Running out of fuel stands for a loop that
   does not terminate and is the outcome UB. *)
Fixpoint replace_loop (fuel : nat) (original substr newsubstr : str) (pos : option nat) : outcome str :=
  match fuel with
  | O => UB
  | S fuel' =>
    match pos with
    | None => Ok original
    | Some p =>
      let original' := firstn p original ++ newsubstr ++ skipn (p + length substr) original in
      replace_loop fuel' original' substr newsubstr
        (find_from substr original' (p + length newsubstr))
    end
  end.

(* Reaktoro/Common/StringUtils.hpp:75-85, replace. *)
Definition replace (original substr newsubstr : str) : outcome str :=
  match substr with
  | [] => Ok original
  | _ => replace_loop (length original + 2) original substr newsubstr
           (find_from substr original 0)
  end.

(* ------------------------------------------------------------------- trim *)

(* Reaktoro/Common/StringUtils.hpp:102-107, trimleft. *)
Fixpoint trimleft (s : str) : str :=
  match s with
  | [] => []
  | c :: s' => if isspace c then trimleft s' else s
  end.

(* Reaktoro/Common/StringUtils.hpp:110-115, trimright. *)
Definition trimright (s : str) : str := rev (trimleft (rev s)).

(* Reaktoro/Common/StringUtils.hpp:118-121, trim. *)
Definition trim (s : str) : str := trimleft (trimright s).

(* ------------------------------------------------------------ split, join *)

Definition mem_char (c : ascii) (delims : str) : bool := existsb (Ascii.eqb c) delims.

(* Reaktoro/Common/StringUtils.hpp:132, "if(word != "") words.push_back(word)". *)
Definition emit (word : str) : list str := match word with [] => [] | _ => [word] end.

(* Reaktoro/Common/StringUtils.hpp:124-136, split without transform (line
   139-142 calls it with an empty transform).  [cur] is the text between the
   variables start and the scanning position; find_first_of scans to the next
   delimiter, so scanning character by character visits the same words. *)
Fixpoint split_aux (delims cur s : str) : list str :=
  match s with
  | [] => emit cur
  | c :: s' => if mem_char c delims then emit cur ++ split_aux delims [] s'
               else split_aux delims (cur ++ [c]) s'
  end.
Definition split (s delims : str) : list str := split_aux delims [] s.

(* Reaktoro/Common/StringUtils.hpp:124-136, split with a transform function
   applied to each non-empty word. *)
Definition split_with (f : str -> str) (s delims : str) : list str := map f (split s delims).

(* Reaktoro/Common/StringUtils.hpp:145-151, join. *)
Fixpoint join_aux (i : nat) (strs : list str) (sep res : str) : str :=
  match strs with
  | [] => res
  | w :: ws => join_aux (S i) ws sep (res ++ ((if Nat.eqb i 0 then [] else sep) ++ w))
  end.
Definition join (strs : list str) (sep : str) : str := join_aux 0 strs sep [].

(* ------------------------------------------------------------- makeunique *)

(* Reaktoro/Common/StringUtils.hpp:165-168, the inner loop over j < i:
   [seen] are words[0..i-1], already updated. *)
Definition uniqueword (suffix : str) (seen : list str) (word : str) : str :=
  fold_left (fun u wj => if str_eqb u wj then u ++ suffix else u) seen word.

(* Reaktoro/Common/StringUtils.hpp:160-172, makeunique.  The loop starts at
   i = 1; the word with i = 0 is compared with nothing and stays as it is. *)
Definition makeunique (words : list str) (suffix : str) : list str :=
  fold_left (fun seen word => seen ++ [uniqueword suffix seen word]) words [].

(* ------------------------------------------------------------- StringList *)

Definition lpar : ascii := "("%char.
Definition rpar : ascii := ")"%char.

(* Reaktoro/Common/StringList.cpp:38-46: the loop of findMatchingBracket from
   iter = begin+1.  Returns the text before the returned iterator and the text
   from it on.  [level] is an int. *)
Fixpoint match_bracket (level : Z) (s : str) : str * str :=
  match s with
  | [] => ([], [])
  | c :: s' =>
    let level1 := if Ascii.eqb c lpar then (level + 1)%Z else level in
    let level2 := if Ascii.eqb c rpar then (level1 - 1)%Z else level1 in
    if Ascii.eqb c rpar && Z.eqb level2 (-1) then ([], s)
    else let (a, b) := match_bracket level2 s' in (c :: a, b)
  end.

(* Reaktoro/Common/StringList.cpp:53-77, convertStringToStringsHelper.
   [cur] is the text in [begin, current), the argument [s] is [current, end).
   Running out of fuel is UB (endless recursion). *)
Fixpoint strings_helper (fuel : nat) (token : ascii) (cur s : str) : outcome (list str) :=
  match fuel with
  | O => UB
  | S fuel' =>
    match s with
    | [] => Ok [cur]
    | c :: s' =>
      if Ascii.eqb c token then omap (cons cur) (strings_helper fuel' token [] s')
      else if negb (Ascii.eqb c lpar) then strings_helper fuel' token (cur ++ [c]) s'
      else let (inside, rest) := match_bracket 0 s' in
           strings_helper fuel' token (cur ++ c :: inside) rest
    end
  end.

(* Reaktoro/Common/StringList.cpp:80-86, convertStringToStrings. *)
Definition convertStringToStrings (s : str) (token : ascii) : outcome (list str) :=
  match s with
  | [] => Ok []
  | _ => strings_helper (S (length s)) token [] s
  end.

(* Reaktoro/Common/StringList.cpp:113-115, StringList(strings, token);
   101-103 and 109-111 are the case token = ' '. *)
Definition StringList (s : str) (token : ascii) : outcome (list str) :=
  convertStringToStrings (trim s) token.
