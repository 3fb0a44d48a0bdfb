(** Names of JSON properties: strong_typing/mapping.py. *)
From Coq Require Import String List NArith ZArith Bool.
From Verif Require Import Base Json PyTypes.
Import ListNotations.
Open Scope list_scope.

(** [keyword.kwlist] of CPython 3.11. *)
Definition keywords : list pystr :=
  map (fun s => str s)
    ["False"; "None"; "True"; "and"; "as"; "assert"; "async"; "await"; "break"; "class";
     "continue"; "def"; "del"; "elif"; "else"; "except"; "finally"; "for"; "from"; "global";
     "if"; "import"; "in"; "is"; "lambda"; "nonlocal"; "not"; "or"; "pass"; "raise";
     "return"; "try"; "while"; "with"; "yield"]%string.

(** [keyword.iskeyword] *)
Definition iskeyword (s : pystr) : bool := mem_str s keywords.

(** [s[:-1]] if [s.endswith("_")]. *)
Definition drop_underscore (s : pystr) : option pystr :=
  match rev s with
  | c :: r => if N.eqb c 95 then Some (rev r) else None
  | [] => None
  end.

(** mapping.py 29-34: the part that applies when no alias is given. *)
Definition strip_keyword (id : pystr) : pystr :=
  match drop_underscore id with
  | Some s => if iskeyword s then s else id
  | None => id
  end.

(** mapping.py 14-34: [python_field_to_json_property]. *)
Definition json_property (id : pystr) (t : option typ) : pystr :=
  match t with
  | Some t' => match get_alias t' with Some a => a | None => strip_keyword id end
  | None => strip_keyword id
  end.
