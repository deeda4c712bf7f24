(* Model of the entry points of SUPCRT databases (Extensions/Supcrt/SupcrtDatabase.cpp)
   and of embedded databases (Core/Database.cpp): the names that are accepted and the
   numeric locale of the process.  Threads that change the locale are not modelled. *)
From Verif Require Import Base M_Algorithms M_System M_Supcrt.

(* The numeric locale of the process, and the locales of the host. *)
Record World := mkWorld { w_locale : str; w_installed : list str }.
(* std::setlocale(LC_NUMERIC, name): the locale stays if there is none of that name; "C"
   always exists. *)
Definition available (w : World) (l : str) : bool := str_eqb l $"C" || existsb (str_eqb l) (w_installed w).
Definition setlocale (l : str) (w : World) : World := if available w l then mkWorld l (w_installed w) else w.
(* SupcrtDatabase.cpp:296-309: the object lives until the body returns or throws. *)
Definition ChangeLocale {A} (l : str) (body : World -> outcome A * World) (w : World) : outcome A * World :=
  let old := w_locale w in
  let '(r, w') := body (setlocale l w) in (r, setlocale old w').

Section Entry.
(* strtod depends on the locale, as_int of pugixml does not. *)
Variable number : str -> str -> Q.
Variable integer : str -> Z.
Variable elements : list Element.
(* The embedded files, the files of the host as pugixml parses them, and the parser of
   pugixml; None: the file cannot be opened, or the text is malformed. *)
Variable embedded : str -> option str.
Variable disk : str -> option xml.
Variable load_string : str -> option xml.

(* SupcrtDatabase.cpp:273-290. *)
Definition getSupcrtDatabaseContent (name : str) : outcome str :=
  if negb (oneof str_eqb name $"supcrt98.xml" [$"supcrt07.xml"; $"supcrt98-organics.xml"; $"supcrt07-organics.xml"]) then Err
  else match embedded ($"databases/supcrt/" ++ name) with Some t => Ok t | None => Err end.
(* SupcrtDatabase.cpp:318-341; the constructor, lines 314-316, is the same. *)
Definition withName (name : str) : World -> outcome (Database * list Params) * World :=
  ChangeLocale $"C" (fun w =>
    (bind (getSupcrtDatabaseContent name) (fun t =>
     if Nat.eqb (length t) 0 then Err
     else match load_string t with None => Err | Some doc => parseDatabase (number (w_locale w)) integer elements doc end), w)).
(* SupcrtDatabase.cpp:343-358. *)
Definition fromFile (path : str) : World -> outcome (Database * list Params) * World :=
  ChangeLocale $"C" (fun w =>
    (match disk path with None => Err | Some doc => parseDatabase (number (w_locale w)) integer elements doc end, w)).

(* Core/Database.cpp:195-215, withName: the text that is given to the parser of YAML. *)
Definition databaseContent (name : str) : outcome str :=
  if negb (oneof str_eqb name $"supcrt98.yaml" [$"supcrt07.yaml"; $"supcrt16.yaml"; $"supcrtbl.yaml"]) then Err
  else match embedded ($"databases/reaktoro/" ++ name) with Some t => Ok t | None => Err end.
End Entry.
(* Core/Database.cpp:202-208, the names that the message of the error lists. *)
Definition messageNames : list str := [$"supcrt98.xml"; $"supcrt07.xml"; $"supcrt16.xml"; $"supcrtbl.xml"].
