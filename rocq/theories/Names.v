(** Names of types: strong_typing/name.py. *)
From Coq Require Import String List NArith ZArith Bool.
From Verif Require Import Base Json Digits PyStr PyTypes TypeAlgebra Schema.
Import ListNotations.
Open Scope list_scope.
Open Scope N_scope.

(** ** [repr] *)

(** What [repr] takes from elsewhere: which characters beyond ASCII are printable
    ([str.isprintable]), floats, metadata the library does not know; and
    [str.isidentifier]. *)
Record python := mkPython {
  py_printable : N -> bool;
  py_float : flt -> pystr;
  py_other : N -> pystr;
  py_identifier : pystr -> bool
}.

Definition escape_hex (c : N) : pystr :=
  if c <=? 255 then str "\x" ++ hex_pad 2 c
  else if c <=? 65535 then str "\u" ++ hex_pad 4 c
  else str "\U" ++ hex_pad 8 c.

(** One character within quotes [q] (CPython 3.11, unicode_repr). *)
Definition escape (P : python) (q c : N) : pystr :=
  if (c =? q) || (c =? 92) then [92; c]
  else if c =? 9 then str "\t"
  else if c =? 10 then str "\n"
  else if c =? 13 then str "\r"
  else if (c <? 32) || (c =? 127) then escape_hex c
  else if c <? 127 then [c]
  else if py_printable P c then [c]
  else escape_hex c.

(** Double quotes if there are single quotes but no double quotes. *)
Definition quote_for (s : pystr) : N := if mem_char 39 s && negb (mem_char 34 s) then 34 else 39.

Definition repr_str (P : python) (s : pystr) : pystr :=
  let q := quote_for s in q :: flat_map (escape P q) s ++ [q].

(** Bytes are written like strings, with no character beyond ASCII printable
    (CPython 3.11, PyBytes_Repr). *)
Definition repr_bytes (P : python) (bs : list N) : pystr :=
  str "b" ++ repr_str (mkPython (fun _ => false) (py_float P) (py_other P) (py_identifier P)) bs.

Definition repr_bool (b : bool) : pystr := if b then str "True" else str "False".

(** Values of enumeration members (JSON scalars). *)
Definition repr_scalar (P : python) (j : json) : pystr :=
  match j with
  | JNull => str "None"
  | JBool b => repr_bool b
  | JInt z => int_str z
  | JFloat f => py_float P f
  | JStr s => repr_str P s
  | JArr _ | JObj _ => []
  end.

(** [repr] of an argument of [Literal]; [Enum.__repr__]: [<Color.RED: 1>] *)
Definition repr_lit (P : python) (E : env) (l : lit) : res pystr :=
  match l with
  | LNone => Ok (str "None")
  | LBool b => Ok (repr_bool b)
  | LInt z => Ok (int_str z)
  | LStr s => Ok (repr_str P s)
  | LBytes bs => Ok (repr_bytes P bs)
  | LEnum c x =>
      match get_class E c with
      | Some cl =>
          match c_kind cl with
          | CEnum ms => match dict_get ms x with
                        | Some j => Ok (str "<" ++ c_name cl ++ str "." ++ x ++ str ": " ++ repr_scalar P j ++ str ">")
                        | None => Err EUnmodelled
                        end
          | _ => Err EUnmodelled
          end
      | None => Err EUnmodelled
      end
  end.

(** auxiliary.py 28-40: [_compact_dataclass_repr] of the annotations defined
    there (93-158) *)
Definition call (f : pystr) (args : list pystr) : pystr := f ++ str "(" ++ join (str ", ") args ++ str ")".

Definition repr_annot (P : python) (a : annot) : pystr :=
  match a with
  | AAlias x => call (str "Alias") [repr_str P x]
  | AIntegerRange lo hi => call (str "IntegerRange") [int_str lo; int_str hi]
  | APrecision s d => call (str "Precision") [dec_str s; dec_str d]
  | AMinLength n => call (str "MinLength") [dec_str n]
  | AMaxLength n => call (str "MaxLength") [dec_str n]
  | AStorage n => call (str "Storage") [dec_str n]
  | ASigned b => call (str "Signed") [repr_bool b]
  | AOther n => py_other P n
  end.

(** ** [TypeFormatter] *)

(** name.py 28-56: the options.  A transformation of types is applied to the
    objects that are types ([TScalar], [TBare], [TClass]). *)
Record formatter := mkFormatter {
  fm_context : option nat;
  fm_type : option (typ -> pystr);
  fm_value : option (lit -> pystr);
  fm_operator : bool
}.

(** [__name__] *)
Definition scalar_name (k : scalar) : pystr :=
  match k with
  | KNone => str "NoneType" | KBool => str "bool" | KInt => str "int" | KFloat => str "float" | KStr => str "str" | KBytes => str "bytes"
  | KDateTime => str "datetime" | KDate => str "date" | KTime => str "time" | KTimeDelta => str "timedelta" | KUUID => str "UUID"
  | KIPv4 => str "IPv4Address" | KIPv6 => str "IPv6Address"
  end.
Definition bare_name (b : bare) : pystr :=
  match b with BList => str "list" | BDict => str "dict" | BSet => str "set" | BTuple => str "tuple" end.

Definition class_name (E : env) (c : nat) : res pystr :=
  match get_class E c with Some cl => Ok (c_name cl) | None => Err EUnmodelled end.

(** auxiliary.py 202-208: [_auxiliary_types]; [dir] lists names in order. *)
Definition sorted_auxiliary : list (typ * pystr) :=
  map (fun x => match find (fun q => pystr_eqb (snd q) (str x)) auxiliary_types with Some q => q | None => (TForm, []) end)
    ["float32"; "float64"; "int16"; "int32"; "int64"; "int8"; "uint16"; "uint32"; "uint64"; "uint8"]%string.

Definition mem_annot (a : annot) (l : list annot) : bool := existsb (annot_eqb a) l.

(** name.py 190-204: the first auxiliary type whose base is [w] and whose
    annotations are among [md], with the other annotations in [md]. *)
Fixpoint find_auxiliary (l : list (typ * pystr)) (w : typ) (md : list annot) : option (pystr * list annot) :=
  match l with
  | [] => None
  | (TAnnot u amd, x) :: r =>
      if typ_eqb u w && forallb (fun a => mem_annot a md) amd
      then Some (x, filter (fun a => negb (mem_annot a amd)) md)
      else find_auxiliary r w md
  | _ :: r => find_auxiliary r w md
  end.

Definition bracket (f : pystr) (args : list pystr) : pystr := f ++ str "[" ++ join (str ", ") args ++ str "]".

Section Formatter.
  Variables (P : python) (E : env) (F : formatter).

  (** name.py 158-164 *)
  Definition atom (t : typ) (name : pystr) : pystr := match fm_type F with Some f => f t | None => name end.

  (** name.py 58-68 *)
  Definition value_to_str (l : lit) : res pystr :=
    match fm_value F with Some f => Ok (f l) | None => repr_lit P E l end.

  Section At.
    (** [eval]: what is written for a type that a text evaluates to. *)
    Variable eval : typ -> res pystr.

    (** name.py 95-124: texts ([fwd]: ForwardRef).  For a text that is an
        attribute of the module, [lookup] gives its value. *)
    Definition ref_to_str (fwd : bool) (s : pystr) : res pystr :=
      match fm_context F with
      | None => if fwd then Ok s else if py_identifier P s then Ok s else Err EValue
      | Some m =>
          match lookup E m s with
          | None => Err EName
          | Some (is_attr, t) =>
              if fwd
              then if negb is_attr then eval t
                   else match t, fm_type F with
                        | TClass _, Some f | TScalar _, Some f | TBare _, Some f => Ok (f t)
                        | _, _ => Ok s
                        end
              else if py_identifier P s && is_attr then Ok s else eval t
          end
      end.

    (** name.py 90-164 ([plain]: [plain_type_to_str]) and 166-211
        ([python_type_to_str]).  Texts within [Union] and [Annotated] are
        ForwardRefs, those within [list] etc. are strings.  [TForm] (Ellipsis,
        Any, Self, type variables, lists of arguments) is not modelled. *)
    Fixpoint to_str_at (plain fwd : bool) (t : typ) : res pystr :=
      let all := fix all (skip fwd : bool) (ts : list typ) : res (list pystr) :=
        match ts with
        | [] => Ok []
        | u :: r =>
            if skip && typ_eqb u (TScalar KNone) then all skip fwd r
            else do s <- to_str_at false fwd u; do rs <- all skip fwd r; Ok (s :: rs)
        end in
      match t with
      | TScalar KNone => Ok (if plain then atom t (scalar_name KNone) else str "None")
      | TScalar k => Ok (atom t (scalar_name k))
      | TBare b => Ok (atom t (bare_name b))
      | TClass c => do x <- class_name E c; Ok (atom t x)
      | TList u => do s <- to_str_at false false u; Ok (bracket (str "list") [s])
      | TSet u => do s <- to_str_at false false u; Ok (bracket (str "set") [s])
      | TDict k u => do s <- to_str_at false false k; do r <- to_str_at false false u; Ok (bracket (str "dict") [s; r])
      | TTuple ts => do ss <- all false false ts; Ok (bracket (str "tuple") ss)
      | TLiteral ls => do ss <- mapM value_to_str ls; Ok (bracket (str "Literal") ss)
      | TUnion _ ts =>
          if fm_operator F
          then do ss <- all false true ts; Ok (join (str " | ") ss)
          else if Nat.eqb (length ts) 2 && existsb (typ_eqb (TScalar KNone)) ts
          then do ss <- all true true ts; Ok (bracket (str "Optional") ss)
          else do ss <- all false true ts; Ok (bracket (str "Union") ss)
      | TAnnot w md =>
          if plain then Err EUnmodelled
          else match get_auxiliary_format t with
               | Some x => Ok x
               | None =>
                   match find_auxiliary sorted_auxiliary w md with
                   | Some (x, rest) => Ok (bracket (str "Annotated") [x; join (str ", ") (map (repr_annot P) rest)])
                   | None => do s <- to_str_at true true w; Ok (bracket (str "Annotated") [s; join (str ", ") (map (repr_annot P) md)])
                   end
               end
      | TRef s => ref_to_str fwd s
      | TForm => Err EUnmodelled
      end.
  End At.

  (** [n] bounds how often texts are evaluated within one another. *)
  Fixpoint to_str (n : nat) (fwd : bool) (t : typ) : res pystr :=
    to_str_at (match n with O => fun _ => Err ERecursion | S n => to_str n false end) false fwd t.
End Formatter.

(** name.py 214-223: [python_type_to_str].  The module of a class is the context,
    which only matters for texts. *)
Definition python_type_to_str (P : python) (E : env) (op : bool) (n : nat) (fwd : bool) (t : typ) : res pystr :=
  let ctx := match t with TClass c => match get_class E c with Some cl => Some (c_module cl) | None => None end | _ => None end in
  to_str P E (mkFormatter ctx None None op) n fwd t.

(** ** [python_type_to_name], name.py 226-287 *)

(** Lines 283-287: [__name__], for what has no arguments ([tuple[()]] has none). *)
Definition simple_name (E : env) (t : typ) : res pystr :=
  match t with
  | TScalar k => Ok (scalar_name k)
  | TBare b => Ok (bare_name b)
  | TClass c => class_name E c
  | TTuple [] => Ok (str "tuple")
  | TForm => Err EUnmodelled
  | _ => Err EType
  end.

(** Without [force]. *)
Fixpoint short_name (E : env) (t : typ) : res pystr :=
  match get_auxiliary_format t with
  | Some x => Ok x
  | None => match t with TAnnot w _ => short_name E w | _ => simple_name E t end
  end.

Definition prefixed (x : string) (names : list pystr) : pystr := str x ++ join (str "__") names.

Definition python_type_to_name (E : env) (force : bool) (t : typ) : res pystr :=
  match get_auxiliary_format t with
  | Some x => Ok x
  | None =>
      match t with
      | TAnnot w _ => short_name E w
      | TDict k v => if force then do a <- short_name E k; do b <- short_name E v; Ok (prefixed "Dict__" [a; b]) else simple_name E t
      | TList u => if force then do a <- short_name E u; Ok (prefixed "List__" [a]) else simple_name E t
      | TSet u => if force then do a <- short_name E u; Ok (prefixed "Set__" [a]) else simple_name E t
      | TTuple ts => if force then do xs <- mapM (short_name E) ts; Ok (prefixed "Tuple__" xs) else simple_name E t
      | TUnion _ ts =>
          if force
          then if is_type_optional_strict t
               then do u <- unwrap_optional t; do a <- short_name E u; Ok (prefixed "Optional__" [a])
               else do xs <- mapM (short_name E) ts; Ok (prefixed "Union__" xs)
          else simple_name E t
      | _ => simple_name E t
      end
  end.
