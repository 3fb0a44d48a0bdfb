(** Serialization: strong_typing/serializer.py. *)
From Coq Require Import String List NArith ZArith Bool.
From Verif Require Import Base Json TimeDelta IsoTime Base64 Addresses PyTypes Mapping Deser.
Import ListNotations.
Open Scope list_scope.
Open Scope nat_scope.

(** Serializer objects (serializer.py 42-381).  [GLiteral], [GCustom], [GRawTuple]
    are LiteralSerializer, CustomSerializer, UntypedNamedTupleSerializer;
    [GClass] is TypedClassSerializer with (field name, property name, generator)
    for each property. *)
Inductive ser :=
| GScalar (k : scalar)
| GEnum
| GBare (b : bare)
| GList (s : ser)
| GStrDict (s : ser)
| GEnumDict (s : ser)
| GSet (s : ser)
| GTuple (ss : list ser)
| GUnion
| GLiteral (s : ser)
| GCustom (h : value -> res json)
| GClass (fs : list (pystr * pystr * ser))
| GRawTuple (fs : list (pystr * pystr))
| GUntyped.

(** Construction of a serializer: [_get_serializer] / [_create_serializer]
    (serializer.py 409-517) for type [t] with evaluation context [ctx].  [n]
    bounds the depth of recursion: a class that contains itself without an
    intervening union makes the Python code recurse without end. *)
Fixpoint mkser (E : env) (n : nat) (ctx : option nat) (t : typ) {struct n} : res ser :=
  match n with
  | O => Err ERecursion
  | S n' =>
    match t with
    | TScalar k => Ok (GScalar k)
    | TBare b => Ok (GBare b)
    | TUnion _ _ => Ok GUnion
    | TList u => do s <- mkser E n' ctx u; Ok (GList s)
    | TSet u => do s <- mkser E n' ctx u; Ok (GSet s)
    | TDict k u =>
        match k with
        | TScalar KStr => do s <- mkser E n' ctx u; Ok (GStrDict s)
        | TClass c =>
            match get_class E c with
            | Some cl =>
                match c_kind cl with
                | CEnum ms =>
                    do s <- mkser E n' ctx u;
                    if forallb (fun x => is_str_json (snd x)) ms && negb (Nat.eqb (length ms) 0)
                    then Ok (GEnumDict s) else Err EJsonType
                | _ => Err EType
                end
            | None => Err EUnmodelled
            end
        | _ => Err EType
        end
    | TTuple ts => do ss <- mapM (mkser E n' ctx) ts; Ok (GTuple ss)
    | TLiteral ls => do u <- literal_type ls; do s <- mkser E n' ctx u; Ok (GLiteral s)
    | TAnnot u _ => mkser E n' None u                                   (* 491-492 *)
    | TClass c =>
        match get_class E c with
        | None => Err EUnmodelled
        | Some cl =>
            match c_to_json cl with
            | Some h => Ok (GCustom h)                                   (* 494-497 *)
            | None =>
                let typed := do ps <- class_properties E cl;
                             do fs <- mapM (fun '(x, u) =>
                                        do s <- mkser E n' (Some (c_module cl)) u;
                                        Ok (x, json_property x (Some u), s)) ps;
                             Ok (GClass fs) in
                match c_kind cl with
                | CEnum _ => Ok GEnum
                | CData _ _ => typed
                | CTuple [] => Ok (GRawTuple [])
                | CTuple _ => typed
                | CRawTuple xs => Ok (GRawTuple (map (fun x => (x, json_property x None)) xs))
                | CPlain [] => Ok GUntyped
                | CPlain _ => typed
                end
            end
        end
    | TRef s =>
        match ctx with
        | None => Err EType                                              (* 411-412 *)
        | Some m =>
            match lookup E m s with
            | None => Err EName
            | Some (_, TRef _) => Err EType
            | Some (_, u) => mkser E n' ctx u
            end
        end
    | TForm => Err EType
    end
  end.

(** [type(obj)] *)
Definition typeof (v : value) : typ :=
  match v with
  | VNone => TScalar KNone
  | VBool _ => TScalar KBool
  | VInt _ => TScalar KInt
  | VFloat _ => TScalar KFloat
  | VStr _ => TScalar KStr
  | VBytes _ => TScalar KBytes
  | VDateTime _ => TScalar KDateTime
  | VDate _ => TScalar KDate
  | VTime _ => TScalar KTime
  | VTimeDelta _ => TScalar KTimeDelta
  | VUUID _ => TScalar KUUID
  | VIPv4 _ => TScalar KIPv4
  | VIPv6 _ => TScalar KIPv6
  | VEnum c _ => TClass c
  | VList _ => TBare BList
  | VTuple _ => TBare BTuple
  | VSet _ => TBare BSet
  | VDict _ => TBare BDict
  | VObj c _ => TClass c
  | VOpaque => TForm
  end.

(** Budget for the construction of a serializer. *)
Definition ser_fuel (E : env) (t : typ) : nat := build_fuel E t.

(** [create_serializer(type(obj))] (serializer.py 384-406). *)
Definition serializer_of (E : env) (t : typ) : res ser := mkser E (ser_fuel E t) None t.

(** serializer.py 48-164.  The serializers of [None], [bool], [int], [float]
    and [str] return their argument as it is; the others are only modelled on
    arguments of their type. *)
Definition as_is (v : value) : res json :=
  match v with
  | VNone => Ok JNull
  | VBool b => Ok (JBool b)
  | VInt z => Ok (JInt z)
  | VFloat f => Ok (JFloat f)
  | VStr s => Ok (JStr s)
  | _ => Err EUnmodelled
  end.

Definition gen_scalar (k : scalar) (v : value) : res json :=
  match k with
  | KNone => Ok JNull
  | KBool | KInt | KFloat | KStr => as_is v
  | KBytes => match v with VBytes x => Ok (JStr (bytes_generate x)) | _ => Err EUnmodelled end
  | KDateTime => match v with VDateTime x => do s <- datetime_generate x; Ok (JStr s) | _ => Err EUnmodelled end
  | KDate => match v with VDate x => Ok (JStr (date_generate x)) | _ => Err EUnmodelled end
  | KTime => match v with VTime x => Ok (JStr (time_generate x)) | _ => Err EUnmodelled end
  | KTimeDelta => match v with VTimeDelta x => Ok (JStr (timedelta_generate x)) | _ => Err EUnmodelled end
  | KUUID => match v with VUUID x => Ok (JStr (uuid_generate x)) | _ => Err EUnmodelled end
  | KIPv4 => match v with VIPv4 x => Ok (JStr (ipv4_generate x)) | _ => Err EUnmodelled end
  | KIPv6 => match v with VIPv6 x => Ok (JStr (ipv6_generate x)) | _ => Err EUnmodelled end
  end.

(** [member.value] *)
Definition enum_value (E : env) (v : value) : res json :=
  match v with
  | VEnum c x =>
      match get_class E c with
      | Some cl => match c_kind cl with
                   | CEnum ms => match dict_get ms x with Some j => Ok j | None => Err EUnmodelled end
                   | _ => Err EUnmodelled
                   end
      | None => Err EUnmodelled
      end
  | _ => Err EUnmodelled
  end.

Definition enum_key (E : env) (v : value) : res pystr :=
  do j <- enum_value E v;
  match j with JStr s => Ok s | _ => Err EUnmodelled end.

(** [str(key)], modelled on string keys. *)
Definition str_key (v : value) : res pystr :=
  match v with VStr s => Ok s | _ => Err EUnmodelled end.

(** [dict(pairs)] *)
Definition dict_of (l : list (pystr * json)) : list (pystr * json) :=
  fold_left (fun d kv => dict_set d (fst kv) (snd kv)) l [].

(** [is_reserved_property] (inspection.py 725-736) on identifiers. *)
Definition starts_with (p s : pystr) : bool := pystr_eqb (firstn (length p) s) p.
Definition ends_with (p s : pystr) : bool := starts_with (rev p) (rev s).
Definition is_reserved (s : pystr) : bool :=
  (starts_with (str "__") s && ends_with (str "__") s && (5 <=? length s)) ||
  pystr_eqb s (str "_abc_impl").

(** [dir(obj)]: attribute names in code point order. *)
Fixpoint str_leb (a b : pystr) : bool :=
  match a, b with
  | [], _ => true
  | _ :: _, [] => false
  | x :: a', y :: b' => if N.ltb x y then true else if N.ltb y x then false else str_leb a' b'
  end.

Section Sort.
  Context {A : Type}.
  Fixpoint insert_attr (x : pystr * A) (l : list (pystr * A)) : list (pystr * A) :=
    match l with
    | [] => [x]
    | y :: r => if str_leb (fst x) (fst y) then x :: l else y :: insert_attr x r
    end.
  Definition sort_attrs (l : list (pystr * A)) : list (pystr * A) := fold_right insert_attr [] l.
End Sort.

Definition is_none (v : value) : bool := match v with VNone => true | _ => false end.

(** Item generators applied to the items of a tuple; surplus items or
    generators are dropped by [zip] (serializer.py 252). *)
Section ZipGen.
  Variable g : ser -> value -> res json.
  Fixpoint zip_gen (ss : list ser) (vs : list value) : res (list json) :=
    match ss, vs with
    | s :: ss', v :: vs' =>
        match g s v with
        | Err e => Err e
        | Ok j => match zip_gen ss' vs' with Err e => Err e | Ok js => Ok (j :: js) end
        end
    | _, _ => Ok []
    end.

  (** serializer.py 283-286, 302-307: the JSON object of a class instance. *)
  Fixpoint gen_fields (attrs : list (pystr * value)) (fs : list (pystr * pystr * ser))
    (acc : list (pystr * json)) : res (list (pystr * json)) :=
    match fs with
    | [] => Ok acc
    | (x, p, s) :: r =>
        match dict_get attrs x with
        | None => Err EAttribute
        | Some VNone => gen_fields attrs r acc
        | Some v => match g s v with
                    | Err e => Err e
                    | Ok j => gen_fields attrs r (dict_set acc p j)
                    end
        end
    end.
End ZipGen.

Definition first_is_enum (kvs : list (value * value)) : bool :=
  match kvs with (VEnum _ _, _) :: _ => true | _ => false end.

(** [serializer.generate(obj)] (serializer.py 48-381); [n] bounds the depth. *)
Fixpoint gen (E : env) (n : nat) (s : ser) (v : value) {struct n} : res json :=
  match n with
  | O => Err ERecursion
  | S n' =>
    (* object_to_json, serializer.py 520-535 *)
    let otj v := do s <- serializer_of E (typeof v); gen E n' s v in
    match s with
    | GScalar k => gen_scalar k v
    | GEnum => enum_value E v
    | GUnion => otj v
    | GLiteral s' => gen E n' s' v
    | GCustom h => h v
    | GBare BList => match v with VList vs => do js <- mapM otj vs; Ok (JArr js) | _ => Err EUnmodelled end
    | GBare BSet => match v with VSet vs => do js <- mapM otj vs; Ok (JArr js) | _ => Err EUnmodelled end
    | GBare BTuple => match v with VTuple vs => do js <- mapM otj vs; Ok (JArr js) | _ => Err EUnmodelled end
    | GBare BDict =>
        match v with
        | VDict kvs =>
            let key := if first_is_enum kvs then enum_key E else str_key in
            do ps <- mapM (fun '(k, x) => do k' <- key k; do j <- otj x; Ok (k', j)) kvs;
            Ok (JObj (dict_of ps))
        | _ => Err EUnmodelled
        end
    | GList s' => match v with VList vs => do js <- mapM (gen E n' s') vs; Ok (JArr js) | _ => Err EUnmodelled end
    | GSet s' => match v with VSet vs => do js <- mapM (gen E n' s') vs; Ok (JArr js) | _ => Err EUnmodelled end
    | GTuple ss => match v with VTuple vs => do js <- zip_gen (gen E n') ss vs; Ok (JArr js) | _ => Err EUnmodelled end
    | GStrDict s' =>
        match v with
        | VDict kvs =>
            do ps <- mapM (fun '(k, x) => do k' <- str_key k; do j <- gen E n' s' x; Ok (k', j)) kvs;
            Ok (JObj (dict_of ps))
        | _ => Err EUnmodelled
        end
    | GEnumDict s' =>
        match v with
        | VDict kvs =>
            do ps <- mapM (fun '(k, x) => do k' <- enum_key E k; do j <- gen E n' s' x; Ok (k', j)) kvs;
            Ok (JObj (dict_of ps))
        | _ => Err EUnmodelled
        end
    | GClass fs =>
        match v with
        | VObj _ attrs => do o <- gen_fields (gen E n') attrs fs []; Ok (JObj o)
        | _ => Err EUnmodelled
        end
    | GRawTuple fs =>
        match v with
        | VObj _ attrs =>
            do ps <- mapM (fun '(x, p) => match dict_get attrs x with
                                          | None => Err EAttribute
                                          | Some u => do j <- otj u; Ok (p, j)
                                          end) fs;
            Ok (JObj (dict_of ps))
        | _ => Err EUnmodelled
        end
    | GUntyped =>
        match v with
        | VObj _ attrs =>
            do ps <- mapM (fun '(x, u) => do j <- otj u; Ok (json_property x None, j))
                          (filter (fun a => negb (is_reserved (fst a)) && negb (is_none (snd a)))
                                  (sort_attrs attrs));
            Ok (JObj (dict_of ps))
        | _ => Err EUnmodelled
        end
    end
  end.

(** Nesting depth of a value. *)
Fixpoint vdepth (v : value) : nat :=
  match v with
  | VList l | VTuple l | VSet l => S (fold_right (fun x a => Nat.max (vdepth x) a) 0 l)
  | VDict l => S (fold_right (fun kv a => Nat.max (vdepth (snd kv)) a) 0 l)
  | VObj _ l => S (fold_right (fun kv a => Nat.max (vdepth (snd kv)) a) 0 l)
  | _ => 0
  end.

(** At each level of the value at most three serializers are passed: a union,
    a literal and the one of the value's own type. *)
Definition gen_fuel (v : value) : nat := 3 * S (vdepth v).

(** [object_to_json(obj)] (serializer.py 520-535) *)
Definition object_to_json (E : env) (v : value) : res json :=
  do s <- serializer_of E (typeof v);
  gen E (gen_fuel v) s v.
