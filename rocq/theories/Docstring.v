(** Documentation strings: strong_typing/docstring.py 35-173 (the data classes
    and their rendering), 239-312 (parse_text), 349-431 (consistency checks).

    Simplification: the attributes param_type, return_type and raise_type, which
    parse_text leaves at their default and which str() ignores, are left out. *)
From Coq Require Import String List NArith Bool PeanoNat.
From Verif Require Import Base PyStr.
Import ListNotations.
Open Scope list_scope.
Open Scope nat_scope.

(** ** Library behaviour *)

Definition NL : N := 10%N.
Definition COLON : N := 58%N.

(** [c.isspace()] for the characters stripped by [str.strip()], separating words
    in [str.split()] and matched by [\s] (CPython 3.11; the three sets agree) *)
Definition space (c : N) : bool :=
  ((9 <=? c) && (c <=? 13) || (28 <=? c) && (c <=? 32))%N || existsb (N.eqb c) unicode_spaces.

(** [s.split()] *)
Definition flush (cur : pystr) : list pystr := match cur with [] => [] | _ => [cur] end.
Fixpoint words_from (cur s : pystr) : list pystr :=
  match s with
  | [] => flush cur
  | c :: r => if space c then flush cur ++ words_from [] r else words_from (cur ++ [c]) r
  end.
Definition words (s : pystr) : list pystr := words_from [] s.

(** [s.strip()] *)
Definition trim (s : pystr) : pystr := strip space s.

(** [re.sub(r"\s+", " ", s)] *)
Fixpoint collapse (in_run : bool) (s : pystr) : pystr :=
  match s with
  | [] => []
  | c :: r =>
      if space c then if in_run then collapse true r else 32%N :: collapse true r
      else c :: collapse false r
  end.

(** [s.replace("\n", " ")] *)
Definition unbreak (s : pystr) : pystr := map (fun c => if (c =? NL)%N then 32%N else c) s.

(** [s.split("\n\n", 1)]: the text before the first empty line; the rest, if any *)
Fixpoint paragraph (s : pystr) : pystr * option pystr :=
  match s with
  | [] => ([], None)
  | c :: r =>
      match r with
      | d :: r' =>
          if (c =? NL)%N && (d =? NL)%N then ([], Some r')
          else let (a, b) := paragraph r in (c :: a, b)
      | [] => ([c], None)
      end
  end.

(** [s.expandtabs()]; [col] is the column, counted since the last line end *)
Fixpoint expandtabs (col : nat) (s : pystr) : pystr :=
  match s with
  | [] => []
  | c :: r =>
      if (c =? 9)%N then repeat 32%N (8 - col mod 8) ++ expandtabs (col + (8 - col mod 8)) r
      else if (c =? NL)%N || (c =? 13)%N then c :: expandtabs 0 r
      else c :: expandtabs (col + 1) r
  end.

(** inspect.cleandoc of the Python library: the indentation of the non-blank
    lines after the first ([None]: there is no such line) *)
Definition indent (line : pystr) : nat := length line - length (lstrip space line).
Definition blank (line : pystr) : bool := match lstrip space line with [] => true | _ => false end.
Fixpoint margin (lines : list pystr) : option nat :=
  match lines with
  | [] => None
  | l :: ls =>
      if blank l then margin ls
      else Some (match margin ls with Some m => Nat.min (indent l) m | None => indent l end)
  end.
(** [while lines and not lines[0]: lines.pop(0)] *)
Fixpoint drop_empty (lines : list pystr) : list pystr :=
  match lines with
  | [] :: ls => drop_empty ls
  | _ => lines
  end.
Definition cleandoc (doc : pystr) : pystr :=
  match split_on NL (expandtabs 0 doc) with
  | [] => []
  | first :: rest =>
      let rest' := match margin rest with Some m => map (skipn m) rest | None => rest end in
      let lines := rev (drop_empty (rev (lstrip space first :: rest'))) in
      join [NL] (drop_empty lines)
  end.

(** ** Data classes *)

(** docstring.py 101-129.  A parameter and an exception are pairs of the name
    stored in the object and its description; the dictionary has its own key. *)
Record docstring := Docstring {
  short_description : option pystr;
  long_description : option pystr;
  params : list (pystr * (pystr * pystr));
  returns : option pystr;
  raises : list (pystr * (pystr * pystr));
  see_also : list pystr
}.
Definition empty_docstring : docstring := Docstring None None [] None [] [].

(** docstring.py 48-49, 63-64, 80-81, 97-98: [__str__] of the parts *)
Definition param_str (p : pystr * pystr) : pystr := str ":param " ++ fst p ++ str ": " ++ snd p.
Definition returns_str (d : pystr) : pystr := str ":returns: " ++ d.
Definition raises_str (p : pystr * pystr) : pystr := str ":raises " ++ fst p ++ str ": " ++ snd p.
Definition see_str (t : pystr) : pystr := str ":see: " ++ t.

(** truth value of an optional string *)
Definition truthy (s : option pystr) : bool := match s with Some (_ :: _) => true | _ => false end.
Definition text_of (s : option pystr) : pystr := match s with Some t => t | None => [] end.

(** docstring.py 131-138 *)
Definition full_description (d : docstring) : option pystr :=
  if truthy (short_description d) && truthy (long_description d)
  then Some (text_of (short_description d) ++ [NL; NL] ++ text_of (long_description d))
  else if truthy (short_description d) then short_description d
  else None.

(** docstring.py 154-169: the lines of the blocks, in the order written *)
Definition block_lines (d : docstring) : list pystr :=
  map (fun e => param_str (snd e)) (params d)
  ++ match returns d with Some r => [returns_str r] | None => [] end
  ++ map (fun e => raises_str (snd e)) (raises d)
  ++ map see_str (see_also d).

(** docstring.py 140-173: Docstring.__str__ *)
Definition docstring_str (d : docstring) : pystr :=
  let has_description := truthy (short_description d) || truthy (long_description d) in
  let description :=
    if truthy (short_description d) && truthy (long_description d)
    then text_of (short_description d) ++ [NL; NL] ++ text_of (long_description d)
    else if truthy (short_description d) then text_of (short_description d)
    else [] in
  let blocks := block_lines d in
  description
  ++ (if has_description then match blocks with [] => [] | _ => [NL] end else [])
  ++ concat (map (fun l => NL :: l) blocks).

(** ** Parsing *)

(** docstring.py 252-258 and 276: [re.search("^:")] and
    [re.finditer(r"(^:.*?)(?=^:|\Z)")] together cut the text in front of every
    colon at the beginning of a line.  The first piece is the description, the
    others are the field chunks.  [bol]: at the beginning of a line. *)
Fixpoint pieces (bol : bool) (s : pystr) : pystr * list pystr :=
  match s with
  | [] => ([], [])
  | c :: r =>
      let (p, ps) := pieces (c =? NL)%N r in
      if bol && (c =? COLON)%N then ([], (c :: p) :: ps) else (c :: p, ps)
  end.

Definition or_none (s : pystr) : option pystr := match s with [] => None | _ => Some s end.

(** docstring.py 276-303: one iteration of the loop *)
Definition parse_chunk (d : docstring) (chunk : pystr) : res docstring :=
  match partition COLON (lstrip (N.eqb COLON) chunk) with
  | (_, None) => Err EValue
  | (args_chunk, Some desc_chunk) =>
      let desc := collapse false (trim desc_chunk) in
      match words args_chunk with
      | [kw; name] =>
          if pystr_eqb kw (str "param")
          then Ok (Docstring (short_description d) (long_description d)
                     (dict_set (params d) name (name, desc)) (returns d) (raises d) (see_also d))
          else if pystr_eqb kw (str "raise") || pystr_eqb kw (str "raises")
          then Ok (Docstring (short_description d) (long_description d) (params d) (returns d)
                     (dict_set (raises d) name (name, desc)) (see_also d))
          else Ok d
      | [kw] =>
          if pystr_eqb kw (str "return") || pystr_eqb kw (str "returns")
          then Ok (Docstring (short_description d) (long_description d) (params d) (Some desc)
                     (raises d) (see_also d))
          else if pystr_eqb kw (str "see") || pystr_eqb kw (str "seealso")
          then Ok (Docstring (short_description d) (long_description d) (params d) (returns d)
                     (raises d) (see_also d ++ [desc]))
          else Ok d
      | _ => Ok d
      end
  end.

Fixpoint parse_chunks (d : docstring) (chunks : list pystr) : res docstring :=
  match chunks with
  | [] => Ok d
  | c :: cs => do d' <- parse_chunk d c; parse_chunks d' cs
  end.

(** docstring.py 260-270 *)
Definition descriptions (desc_chunk : pystr) : option pystr * option pystr :=
  let (first, rest) := paragraph desc_chunk in
  (or_none (unbreak (trim first)),
   match rest with Some r => or_none (trim r) | None => None end).

(** docstring.py 239-312 *)
Definition parse_text (text : pystr) : res docstring :=
  match text with
  | [] => Ok empty_docstring
  | _ =>
      let (desc_chunk, chunks) := pieces true (cleandoc text) in
      let (s, l) := descriptions desc_chunk in
      parse_chunks (Docstring s l [] None [] []) chunks
  end.

(** ** Consistency checks *)

(** docstring.py 362-396: [base_props] are the properties of the base classes,
    [class_props] those of the class itself (inherited ones included). *)
Definition check_dataclass_docstring (class_props base_props : list pystr) (d : docstring)
  (strict : bool) : res unit :=
  let properties := filter (fun n => negb (mem_str n base_props)) class_props in
  if existsb (fun e => negb (mem_str (fst e) properties)) (params d) then Err EType
  else if negb strict then Ok tt
  else if existsb (fun n => negb (dict_mem (params d) n)) properties then Err EType
  else Ok tt.

(** docstring.py 399-431: a parameter of a signature is its name and whether it
    can be given by position; [has_return]: there is a return annotation. *)
Definition check_function_docstring (signature : list (pystr * bool)) (has_return : bool)
  (d : docstring) (strict : bool) : res unit :=
  if existsb (fun e => negb (mem_str (fst e) (map fst signature))) (params d) then Err EType
  else if match returns d with Some _ => negb has_return | None => false end then Err EType
  else if negb strict then Ok tt
  else if existsb (fun p => negb (pystr_eqb (fst p) (str "self") && snd p)
                            && negb (dict_mem (params d) (fst p))) signature then Err EType
  else if has_return && match returns d with Some _ => false | None => true end then Err EType
  else Ok tt.
