(** Deserialization: strong_typing/deserializer.py.

    This file models [json_to_object] of a fresh interpreter: the construction
    of the deserializer ([build]) followed by parsing ([parse]).  The cache of
    deserializers is modelled in DeserCache.v. *)
From Coq Require Import String List NArith ZArith Bool.
From Verif Require Import Base Json TimeDelta IsoTime Base64 Addresses PyTypes Mapping.
Import ListNotations.
Open Scope list_scope.
Open Scope nat_scope.

(** deserializer.py 98-265: the parsers of built-in types.  Formatting of the
    rejected data into the error message is taken to succeed. *)
Definition parse_scalar (k : scalar) (j : json) : res value :=
  match k with
  | KNone => match j with JNull => Ok VNone | _ => Err EJsonType end
  | KBool => match j with JBool b => Ok (VBool b) | _ => Err EJsonType end
  | KInt =>
      match j with
      | JInt z => Ok (VInt z)
      | JBool b => Ok (VInt (if b then 1 else 0))   (* bool is a subclass of int *)
      | _ => Err EJsonType
      end
  | KFloat =>
      match j with
      | JFloat f => Ok (VFloat f)
      | JInt z => do f <- int_to_float z; Ok (VFloat f)
      | JBool b => do f <- int_to_float (if b then 1 else 0); Ok (VFloat f)
      | _ => Err EJsonType
      end
  | KStr => match j with JStr s => Ok (VStr s) | _ => Err EJsonType end
  | KBytes => match j with JStr s => do x <- bytes_parse s; Ok (VBytes x) | _ => Err EJsonType end
  | KDateTime => match j with JStr s => do x <- datetime_parse s; Ok (VDateTime x) | _ => Err EJsonType end
  | KDate => match j with JStr s => do x <- date_parse s; Ok (VDate x) | _ => Err EJsonType end
  | KTime => match j with JStr s => do x <- time_parse s; Ok (VTime x) | _ => Err EJsonType end
  | KTimeDelta => match j with JStr s => do x <- timedelta_parse s; Ok (VTimeDelta x) | _ => Err EJsonType end
  | KUUID => match j with JStr s => do x <- uuid_parse s; Ok (VUUID x) | _ => Err EJsonType end
  | KIPv4 => match j with JStr s => do x <- ipv4_parse s; Ok (VIPv4 x) | _ => Err EJsonType end
  | KIPv6 => match j with JStr s => do x <- ipv6_parse s; Ok (VIPv6 x) | _ => Err EJsonType end
  end.

(** deserializer.py 539-548 *)
Definition parse_enum (c : nat) (members : list (pystr * json)) (j : json) : res value :=
  match enum_find members j with
  | Some x => Ok (VEnum c x)
  | None => Err EValue
  end.

(** deserializer.py 304-329: the key type of a dict must be [str] or an
    enumeration with string values.  [issubclass] raises TypeError for
    anything that is not a class. *)
Definition is_str_json (j : json) : bool := match j with JStr _ => true | _ => false end.

Definition check_key_type (E : env) (k : typ) : res unit :=
  match k with
  | TScalar KStr => Ok tt
  | TScalar _ | TBare _ => Err EJsonType
  | TClass c =>
      match get_class E c with
      | Some cl =>
          match c_kind cl with
          | CEnum ms => if forallb (fun m => is_str_json (snd m)) ms && negb (Nat.eqb (length ms) 0)
                        then Ok tt else Err EJsonType
          | _ => Err EJsonType
          end
      | None => Err EUnmodelled
      end
  | _ => Err EType
  end.

(** deserializer.py 340-343: [self.key_type(key)]. *)
Definition parse_key (E : env) (k : typ) (s : pystr) : res value :=
  match k with
  | TScalar KStr => Ok (VStr s)
  | TClass c =>
      match get_class E c with
      | Some cl => match c_kind cl with
                   | CEnum ms => parse_enum c ms (JStr s)
                   | _ => Err EUnmodelled
                   end
      | None => Err EUnmodelled
      end
  | _ => Err EUnmodelled
  end.

(** deserializer.py 414-426: alternatives are tried in order; only JsonKeyError
    and JsonTypeError move on to the next one. *)
Section UnionTry.
  Variable p : typ -> res value.
  Fixpoint union_try (ts : list typ) : res value :=
    match ts with
    | [] => Err EJsonKey
    | t :: r =>
        match p t with
        | Err EJsonKey | Err EJsonType => union_try r
        | o => o
        end
    end.
End UnionTry.

(** deserializer.py 429-434: names of the literal-typed properties of a type
    that is a Python class. *)
Definition literal_properties (E : env) (t : typ) : res (list pystr) :=
  match t with
  | TClass c =>
      match get_class E c with
      | Some cl =>
          do ps <- class_properties E cl;
          Ok (map fst (filter (fun p => match literal_values (snd p) with
                                        | Some _ => true | None => false end) ps))
      | None => Err EUnmodelled
      end
  | _ => Ok []
  end.

(** [isinstance(typ, type)] *)
Definition is_class_type (t : typ) : bool :=
  match t with TScalar _ | TBare _ | TClass _ => true | _ => false end.

(** deserializer.py 437-447 *)
Fixpoint common_properties (E : env) (props : list pystr) (ts : list typ) : res (list pystr) :=
  match ts with
  | [] => Ok props
  | t :: r => do ps <- literal_properties E t;
              common_properties E (filter (fun p => mem_str p ps) props) r
  end.

Definition discriminating_properties (E : env) (ts : list typ) : res (list pystr) :=
  match ts with
  | [] => Ok []
  | t :: r =>
      if forallb is_class_type ts
      then do ps <- literal_properties E t; common_properties E ps r
      else Ok []
  end.

(** Literal values of property [p] of a class (inspection.py 568-574,
    deserializer.py 466-470). *)
Definition tag_values (E : env) (t : typ) (p : pystr) : res (list lit) :=
  match t with
  | TClass c =>
      match get_class E c with
      | Some cl =>
          do ps <- class_properties E cl;
          match dict_get ps p with
          | Some t' => match literal_values t' with Some ls => Ok ls | None => Ok [] end
          | None => Ok []
          end
      | None => Err EUnmodelled
      end
  | _ => Ok []
  end.

(** deserializer.py 463-479: the table from (property, value) to member type.
    The properties [ps] come in the iteration order of the set. *)
Definition tag_row (E : env) (ps : list pystr) (t : typ) : res (list (pystr * lit * typ)) :=
  do rows <- mapM (fun p => do ls <- tag_values E t p; Ok (map (fun l => (p, l, t)) ls)) ps;
  Ok (concat rows).

Definition tag_table (E : env) (ps : list pystr) (ts : list typ) : res (list (pystr * lit * typ)) :=
  do rows <- mapM (tag_row E ps) ts;
  Ok (concat rows).

(** Python equality of literal values. *)
Definition lit_number (l : lit) : option Z :=
  match l with
  | LBool b => Some (if b then 1 else 0)%Z
  | LInt z => Some z
  | _ => None
  end.

Definition lit_pyeq (a b : lit) : bool :=
  match lit_number a, lit_number b with
  | Some x, Some y => Z.eqb x y
  | _, _ => lit_eqb a b
  end.

(** Python equality of a literal value and JSON data; members of (plain)
    enumerations and bytes are not equal to any JSON data. *)
Definition lit_json_eqb (l : lit) (j : json) : bool :=
  match l with
  | LNone => scalar_eqb JNull j
  | LBool b => scalar_eqb (JBool b) j
  | LInt z => scalar_eqb (JInt z) j
  | LStr s => scalar_eqb (JStr s) j
  | LBytes _ | LEnum _ _ => false
  end.

Fixpoint tag_find (tbl : list (pystr * lit * typ)) (p : pystr) (j : json) : option typ :=
  match tbl with
  | [] => None
  | (p', l, t) :: r => if pystr_eqb p' p && lit_json_eqb l j then Some t else tag_find r p j
  end.

(** deserializer.py 486-506: the member selected by the document.  The first
    tag property (in set order) that is present and not null decides.  A tag
    that is an array or object is not hashable: TypeError. *)
Fixpoint tag_select (tbl : list (pystr * lit * typ)) (ps : list pystr) (o : list (pystr * json))
  : res typ :=
  match ps with
  | [] => Err EJsonType
  | p :: r =>
      match dict_get o p with
      | None | Some JNull => tag_select tbl r o
      | Some (JArr _) | Some (JObj _) => Err EType
      | Some j => match tag_find tbl p j with
                  | Some t => Ok t
                  | None => Err EJsonType
                  end
      end
  end.

(** Field parsers (deserializer.py 563-653). *)
Inductive fmode :=
| FRequired
| FOptional
| FDefault (d : res value).

Record fparser := mkFP {
  fp_prop : pystr;
  fp_name : pystr;
  fp_type : typ;
  fp_mode : fmode
}.

(** deserializer.py 726-753 and 778-794: mode of a field and the type of its
    parser. *)
Definition field_parser (x : pystr) (t : typ) (d : option (res value)) : res fparser :=
  do t' <- (if is_type_optional t then unwrap_optional t else Ok t);
  Ok (mkFP (json_property x (Some t)) x t'
           (match d with
            | Some v => FDefault v
            | None => if is_type_optional t then FOptional else FRequired
            end)).

Definition field_parsers (E : env) (c : class) : res (list fparser) :=
  do hs <- hints E c;
  match c_kind c with
  | CTuple _ => Ok (map (fun '(x, t) => mkFP x x t FRequired) hs)   (* 697-709 *)
  | CData _ fs => mapM (fun '(f, (x, t)) => field_parser x t (f_default f)) (combine fs hs)
  | CPlain _ => mapM (fun '(x, t) => field_parser x t None) hs
  | CEnum _ | CRawTuple _ => Ok []
  end.

(** deserializer.py 585-653: [parse_field]. *)
Definition parse_field (p : typ -> json -> res value) (fp : fparser) (o : list (pystr * json))
  : res value :=
  match fp_mode fp with
  | FRequired =>
      match dict_get o (fp_prop fp) with
      | None => Err EJsonKey
      | Some JNull => Err EJsonValue
      | Some j => p (fp_type fp) j
      end
  | FOptional =>
      match dict_get o (fp_prop fp) with
      | None | Some JNull => Ok VNone
      | Some j => p (fp_type fp) j
      end
  | FDefault d =>
      match dict_get o (fp_prop fp) with
      | None | Some JNull => d
      | Some j => p (fp_type fp) j
      end
  end.

(** deserializer.py 672-694: [ClassDeserializer.parse]. *)
Definition parse_object (p : typ -> json -> res value) (skip : bool) (c : nat) (cl : class)
  (fps : list fparser) (j : json) : res value :=
  match j with
  | JObj o =>
      do vals <- mapM (fun fp => do v <- parse_field p fp o; Ok (fp_name fp, v)) fps;
      if skip || forallb (fun kv => mem_str (fst kv) (map fp_prop fps)) o
      then match c_kind cl with
           | CRawTuple (_ :: _) => Err EType   (* missing constructor arguments *)
           | _ => Ok (VObj c vals)
           end
      else Err EJsonKey
  | _ => Err EJsonType
  end.

(** Distributes a tuple of parsers over an array of the same length
    (deserializer.py 398). *)
Section ZipParse.
  Variable p : typ -> json -> res value.
  Fixpoint zip_parse (ts : list typ) (js : list json) : res (list value) :=
    match ts, js with
    | t :: ts', j :: js' =>
        match p t j with
        | Err e => Err e
        | Ok v => match zip_parse ts' js' with Err e => Err e | Ok vs => Ok (v :: vs) end
        end
    | _, _ => Ok []
    end.
End ZipParse.

(** What a reference stands for when a deserializer or serializer is fetched:
    the value is unwrapped if annotated, but not evaluated once more
    (deserializer.py 840-853). *)
Definition deref (t : typ) : typ := unwrap_annotated t.

(** [deserializer.parse(data)] for the deserializer of type [t] in module [m]
    (deserializer.py 98-796, dispatch 880-974).  [n] bounds the depth of
    recursion. *)
Fixpoint parse (E : env) (skip : bool) (n : nat) (m : nat) (t : typ) (j : json) {struct n}
  : res value :=
  match n with
  | O => Err ERecursion
  | S n' =>
    match t with
    | TScalar k => parse_scalar k j
    | TBare _ => Err EType
    | TList u =>
        match j with
        | JArr js => do vs <- mapM (parse E skip n' m u) js; Ok (VList vs)
        | _ => Err EJsonType
        end
    | TSet u =>
        match j with
        | JArr js =>
            do vs <- mapM (fun x => do v <- parse E skip n' m u x;
                                    if hashable E v then Ok v else Err EType) js;
            Ok (VSet (set_of E [] vs))
        | _ => Err EJsonType
        end
    | TDict k u =>
        match j with
        | JObj o =>
            do kvs <- mapM (fun '(s, x) => do kv <- parse_key E k s;
                                           do v <- parse E skip n' m u x; Ok (kv, v)) o;
            Ok (VDict kvs)
        | _ => Err EJsonType
        end
    | TTuple ts =>
        match j with
        | JArr js =>
            if Nat.eqb (length js) (length ts)
            then do vs <- zip_parse (parse E skip n' m) ts js; Ok (VTuple vs)
            else Err EJsonValue
        | _ => Err EJsonType
        end
    | TUnion _ ts =>
        do ps <- discriminating_properties E ts;
        match ps with
        | [] => union_try (fun u => parse E skip n' m u j) ts
        | _ =>
            let ps' := e_order E ps in
            do tbl <- tag_table E ps' ts;
            match j with
            | JObj o => do u <- tag_select tbl ps' o; parse E skip n' m u j
            | _ => Err EJsonType
            end
        end
    | TLiteral ls =>
        do u <- literal_type ls;
        do v <- parse E skip n' m u j;
        if existsb (fun l => py_eq E (lit_value l) v) ls then Ok v else Err EJsonType
    | TAnnot u _ =>
        match u with
        | TRef _ => Err EType     (* a reference under Annotated is not evaluated *)
        | _ => parse E skip n' m u j
        end
    | TClass c =>
        match get_class E c with
        | None => Err EUnmodelled
        | Some cl =>
            match c_kind cl, c_from_json cl with
            | CEnum ms, _ => parse_enum c ms j
            | CData _ _, Some h | CPlain _, Some h => h j
            | _, _ =>
                do fps <- field_parsers E cl;
                parse_object (parse E skip n' (c_module cl)) skip c cl fps j
            end
        end
    | TRef s =>
        match lookup E m s with
        | None => Err EName
        | Some (_, u) =>
            match deref u with
            | TRef _ => Err EType
            | u' => parse E skip n' m u' j
            end
        end
    | TForm => Err EType
    end
  end.

(** Keys of the deserializer cache: classes by module and name, other
    attributes of modules by module and text (deserializer.py 838-856).  Class
    names are taken to be unique per module here. *)
Inductive ckey :=
| KeyClass (c : nat)
| KeyAlias (m : nat) (s : pystr).

Definition ckey_eqb (a b : ckey) : bool :=
  match a, b with
  | KeyClass c, KeyClass d => Nat.eqb c d
  | KeyAlias m s, KeyAlias m' s' => Nat.eqb m m' && pystr_eqb s s'
  | _, _ => false
  end.

(** Runs [f] over a list, threading the visited set. *)
Section FoldBuild.
  Context {A : Type}.
  Variable f : A -> list ckey -> res (list ckey).
  Fixpoint fold_build (l : list A) (vis : list ckey) : res (list ckey) :=
    match l with
    | [] => Ok vis
    | x :: r => match f x vis with Err e => Err e | Ok vis' => fold_build r vis' end
    end.
End FoldBuild.

(** Duplicate tag check (deserializer.py 470-477). *)
Fixpoint tags_distinct (seen : list (pystr * lit)) (tbl : list (pystr * lit * typ)) : bool :=
  match tbl with
  | [] => true
  | (p, l, _) :: r =>
      if existsb (fun q => pystr_eqb (fst q) p && lit_pyeq (snd q) l) seen then false
      else tags_distinct ((p, l) :: seen) r
  end.

(** Construction of a deserializer, [_get_deserializer] (deserializer.py
    835-974): returns the cache keys visited, or the exception raised.  In a
    tagged union the members are built as their rows are entered in the table,
    so a duplicate tag is reported after the members before it were built; the
    model reports it before the members are built (a difference only in which
    of several exceptions is raised). *)
Fixpoint build (E : env) (n : nat) (m : nat) (t : typ) (vis : list ckey) {struct n}
  : res (list ckey) :=
  match n with
  | O => Err ERecursion
  | S n' =>
    match t with
    | TScalar _ => Ok vis
    | TBare _ | TForm => Err EType
    | TList u | TSet u => build E n' m u vis
    | TDict k u => do _ <- check_key_type E k; build E n' m u vis
    | TTuple ts => fold_build (build E n' m) ts vis
    | TUnion _ ts =>
        do ps <- discriminating_properties E ts;
        match ps with
        | [] => fold_build (build E n' m) ts vis
        | _ => do tbl <- tag_table E (e_order E ps) ts;
               if tags_distinct [] tbl then fold_build (build E n' m) ts vis
               else Err EJsonType
        end
    | TLiteral ls => do u <- literal_type ls; build E n' m u vis
    | TAnnot u _ => match u with TRef _ => Err EType | _ => build E n' m u vis end
    | TClass c =>
        match get_class E c with
        | None => Err EUnmodelled
        | Some cl =>
            if existsb (ckey_eqb (KeyClass c)) vis then Ok vis
            else
              let vis' := KeyClass c :: vis in
              match c_kind cl, c_from_json cl with
              | CEnum _, _ => Ok vis'
              | CData _ _, Some _ | CPlain _, Some _ => Ok vis'
              | _, _ =>
                  do fps <- field_parsers E cl;
                  fold_build (fun fp => build E n' (c_module cl) (fp_type fp)) fps vis'
              end
        end
    | TRef s =>
        match lookup E m s with
        | None => Err EName
        | Some (attr, u) =>
            match deref u with
            | TRef _ => Err EType
            | TScalar _ | TBare _ | TClass _ => build E n' m (deref u) vis
            | u' =>
                if attr then
                  if existsb (ckey_eqb (KeyAlias m s)) vis then Ok vis
                  else build E n' m u' (KeyAlias m s :: vis)
                else build E n' m u' vis
            end
        end
    end
  end.

(** Heights of annotations, used as recursion budgets. *)
Fixpoint theight (t : typ) : nat :=
  match t with
  | TList u | TSet u | TAnnot u _ => S (theight u)
  | TDict k v => S (Nat.max (theight k) (theight v))
  | TTuple ts | TUnion _ ts => S (fold_right (fun u a => Nat.max (theight u) a) 0 ts)
  | TLiteral _ => 2
  | _ => 1
  end.

Definition fields_height (fs : list (pystr * typ)) : nat :=
  fold_right (fun f a => Nat.max (theight (snd f)) a) 0 fs.

Definition classes_height (cs : list class) : nat :=
  fold_right (fun c a => S (fields_height (raw_fields (c_kind c))) + a) 0 cs.

Definition refs_height (rs : list (nat * pystr * (bool * typ))) : nat :=
  fold_right (fun r a => S (theight (snd (snd r))) + a) 0 rs.

Definition env_size (E : env) : nat := classes_height (e_classes E) + refs_height (e_refs E).

(** A bound on how far types unfold at one level of the document
    (DeserFuel.v). *)
Definition level_bound (E : env) (t : typ) : nat := S (theight t + env_size E + env_size E).

Definition build_fuel (E : env) (t : typ) : nat :=
  S (length (e_classes E) + length (e_refs E)) * level_bound E t.

(** [create_deserializer(typ)] in a fresh interpreter (deserializer.py
    799-829). *)
Definition create_deserializer (E : env) (m : nat) (t : typ) : res (list ckey) :=
  build E (build_fuel E t) m t [].

Definition parse_fuel (E : env) (t : typ) (j : json) : nat := S (jdepth j) * level_bound E t.

(** [json_to_object(typ, data)] in a fresh interpreter (serialization.py
    40-60). *)
Definition json_to_object (E : env) (skip : bool) (m : nat) (t : typ) (j : json) : res value :=
  do _ <- create_deserializer E m t;
  parse E skip (parse_fuel E t j) m t j.
