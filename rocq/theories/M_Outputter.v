(* Tables of progress (Common/Outputter.cpp, Common/Outputter.hpp).  What is printed
   is a list of lines.  Texts of numbers are given: formatting them is the work of
   the streams of the standard library.  Lines end with std::endl and nothing else is
   printed in between. *)
From Verif Require Import Base M_Strings M_Formula M_Chem.

(* Common/Outputter.hpp:31-47; the numbers about the format of values are left out. *)
Record Options := mkOptions { op_active : bool; op_width : nat; op_separator : str }.
Definition defaultOptions : Options := mkOptions false 15 $"|".
(* Common/Outputter.hpp:103-108. *)
Record Outputter := mkOutputter { t_entries : list str; t_values : list str; t_options : Options }.
Definition newOutputter : Outputter := mkOutputter [] [] defaultOptions.

(* Common/Outputter.cpp:27-30. *)
Definition colwidth (width : nat) (s : str) : nat := if length s + 4 <? width then width else length s + 4.
(* Common/Outputter.cpp:33-36. *)
Definition barstr (width : nat) (s : str) : str := repeat "="%char (colwidth width s).
(* std::setw(w) << std::left << s. *)
Definition padded (w : nat) (s : str) : str := s ++ repeat " "%char (w - length s).

(* Common/Outputter.cpp:40-44 and 49-52. *)
Definition setOptions (o : Options) (t : Outputter) : Outputter := mkOutputter (t_entries t) (t_values t) o.
(* Common/Outputter.cpp:54-57. *)
Definition addEntry (name : str) (t : Outputter) : Outputter := mkOutputter (t_entries t ++ [name]) (t_values t) (t_options t).
(* Common/Outputter.cpp:59-67. *)
Definition indexed (prefix : str) (i : nat) : str := prefix ++ $"[" ++ N_to_string (N.of_nat i) ++ $"]".
Definition addEntries (prefix : str) (size : nat) (t : Outputter) : Outputter :=
  fold_left (fun t i => addEntry (indexed prefix i) t) (seq 0 size) t.
(* Common/Outputter.cpp:69-82. *)
Definition addEntriesNamed (prefix : str) (size : nat) (names : list str) (t : Outputter) : Outputter :=
  if negb (length names =? size) then addEntries prefix size t
  else fold_left (fun t name => addEntry (prefix ++ $"[" ++ name ++ $"]") t) names t.
(* Common/Outputter.cpp:84-87 and 89-92. *)
Definition addEntrySeparator (t : Outputter) : Outputter := mkOutputter (t_entries t ++ [op_separator (t_options t)]) (t_values t) (t_options t).
Definition addValueSeparator (t : Outputter) : Outputter := mkOutputter (t_entries t) (t_values t ++ [op_separator (t_options t)]) (t_options t).
(* Common/Outputter.hpp:117-126; [val] is the text of the value. *)
Definition addValue (val : str) (t : Outputter) : Outputter := mkOutputter (t_entries t) (t_values t ++ [val]) (t_options t).

(* Common/Outputter.cpp:94-111. *)
Definition bars (o : Options) (entries : list str) : str :=
  concat (map (fun e => if str_eqb e (op_separator o) then op_separator o else barstr (op_width o) e) entries).
Definition names (o : Options) (entries : list str) : str :=
  concat (map (fun e => if str_eqb e (op_separator o) then op_separator o else padded (colwidth (op_width o) e) e) entries).
Definition outputHeader (t : Outputter) : list str :=
  let o := t_options t in
  if op_active o then [bars o (t_entries t); names o (t_entries t); bars o (t_entries t)] else [].
(* Common/Outputter.cpp:119-122: the iterator over the entries moves on with values
   that are not separators; it is undefined to read it at the end. *)
Fixpoint cells (o : Options) (entry : list str) (values : list str) : outcome str :=
  match values with
  | [] => Ok []
  | val :: values' =>
    if str_eqb val (op_separator o) then omap (app (op_separator o)) (cells o entry values')
    else match entry with
         | [] => UB
         | e :: entry' => omap (app (padded (colwidth (op_width o) e) val)) (cells o entry' values')
         end
  end.
(* Common/Outputter.cpp:113-127. *)
Definition outputState (t : Outputter) : outcome (list str * Outputter) :=
  let o := t_options t in
  if op_active o then
    if length (t_entries t) =? length (t_values t) then
      omap (fun line => ([line], mkOutputter (t_entries t) [] o)) (cells o (t_entries t) (t_values t))
    else Err
  else Ok ([], t).
(* Common/Outputter.cpp:129-132. *)
Definition outputMessage (message : str) (t : Outputter) : list str := if op_active (t_options t) then [message] else [].

(* ---- Uses of an outputter ---- *)
Inductive Call :=
| SetOptions (o : Options) | AddEntry (name : str) | AddEntries (prefix : str) (size : nat) | AddEntriesNamed (prefix : str) (size : nat) (names : list str)
| AddEntrySeparator | AddValue (val : str) | AddValueSeparator | OutputHeader | OutputState | OutputMessage (m : str).
Definition call (c : Call) (t : Outputter) : outcome (list str * Outputter) :=
  match c with
  | SetOptions o => Ok ([], setOptions o t)
  | AddEntry n => Ok ([], addEntry n t)
  | AddEntries p k => Ok ([], addEntries p k t)
  | AddEntriesNamed p k l => Ok ([], addEntriesNamed p k l t)
  | AddEntrySeparator => Ok ([], addEntrySeparator t)
  | AddValue v => Ok ([], addValue v t)
  | AddValueSeparator => Ok ([], addValueSeparator t)
  | OutputHeader => Ok (outputHeader t, t)
  | OutputState => outputState t
  | OutputMessage m => Ok (outputMessage m t, t)
  end.
(* What a sequence of calls prints. *)
Fixpoint calls (l : list Call) (t : Outputter) : outcome (list str * Outputter) :=
  match l with
  | [] => Ok ([], t)
  | c :: l' => bind (call c t) (fun r => omap (fun r' => (fst r ++ fst r', snd r')) (calls l' (snd r)))
  end.
