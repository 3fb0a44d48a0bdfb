(** Python types and values that the library processes, and the classes of a
    program. *)
From Coq Require Import String List NArith ZArith Bool Lia.
From Verif Require Import Base Json TimeDelta IsoTime Addresses.
Import ListNotations.
Open Scope list_scope.

(** Types with a built-in treatment (serializer.py 431-456, deserializer.py
    884-909). *)
Inductive scalar :=
| KNone | KBool | KInt | KFloat | KStr | KBytes
| KDateTime | KDate | KTime | KTimeDelta | KUUID | KIPv4 | KIPv6.

(** Unparameterised collection types (serializer.py 459-466, deserializer.py
    912-919). *)
Inductive bare := BList | BDict | BSet | BTuple.

(** Arguments of [typing.Literal]; enumeration members are given by class and
    member name. *)
Inductive lit :=
| LNone | LBool (b : bool) | LInt (z : Z) | LStr (s : pystr) | LBytes (bs : list N)
| LEnum (c : nat) (name : pystr).

(** Metadata of [Annotated] (auxiliary.py 21-140); [AOther] is metadata the
    library does not look at. *)
Inductive annot :=
| AAlias (name : pystr)
| AIntegerRange (lo hi : Z)
| APrecision (significant decimals : N)
| AMinLength (n : N)
| AMaxLength (n : N)
| AStorage (n : N)
| ASigned (b : bool)
| AOther (n : N).

(** Type annotations.
    - [TUnion op ts]: [Union[...]] ([op = false]) or [A | B] ([op = true]).
    - [TClass c]: the class number [c] of the program (enumeration, named tuple,
      data class or plain class).
    - [TRef s]: a string or [ForwardRef] standing for the text [s].
    - [TForm]: any object the library does not recognise as a type
      (an [Ellipsis], a type variable, a [Callable], ...). *)
Inductive typ :=
| TScalar (k : scalar)
| TBare (b : bare)
| TList (t : typ)
| TSet (t : typ)
| TDict (k v : typ)
| TTuple (ts : list typ)
| TUnion (op : bool) (ts : list typ)
| TLiteral (ls : list lit)
| TAnnot (t : typ) (md : list annot)
| TClass (c : nat)
| TRef (s : pystr)
| TForm.

Section TypInd.
  Variable P : typ -> Prop.
  Hypothesis Hscalar : forall k, P (TScalar k).
  Hypothesis Hbare : forall b, P (TBare b).
  Hypothesis Hlist : forall t, P t -> P (TList t).
  Hypothesis Hset : forall t, P t -> P (TSet t).
  Hypothesis Hdict : forall k v, P k -> P v -> P (TDict k v).
  Hypothesis Htuple : forall ts, Forall P ts -> P (TTuple ts).
  Hypothesis Hunion : forall op ts, Forall P ts -> P (TUnion op ts).
  Hypothesis Hlit : forall ls, P (TLiteral ls).
  Hypothesis Hannot : forall t md, P t -> P (TAnnot t md).
  Hypothesis Hclass : forall c, P (TClass c).
  Hypothesis Href : forall s, P (TRef s).
  Hypothesis Hform : P TForm.

  Fixpoint typ_induct (t : typ) : P t :=
    let go := fix go (l : list typ) : Forall P l :=
      match l with [] => Forall_nil _ | x :: r => Forall_cons _ (typ_induct x) (go r) end in
    match t with
    | TScalar k => Hscalar k
    | TBare b => Hbare b
    | TList u => Hlist u (typ_induct u)
    | TSet u => Hset u (typ_induct u)
    | TDict k v => Hdict k v (typ_induct k) (typ_induct v)
    | TTuple ts => Htuple ts (go ts)
    | TUnion op ts => Hunion op ts (go ts)
    | TLiteral ls => Hlit ls
    | TAnnot u md => Hannot u md (typ_induct u)
    | TClass c => Hclass c
    | TRef s => Href s
    | TForm => Hform
    end.
End TypInd.

(** Python objects.
    - [VEnum c name]: member [name] of enumeration [c].
    - [VObj c attrs]: instance of class [c] (data class, named tuple or plain
      class) with its attributes in definition order.
    - [VSet vs]: a set; the list is its iteration order.
    - [VOpaque]: anything the library has no representation for (a function, a
      module). *)
Inductive value :=
| VNone
| VBool (b : bool)
| VInt (z : Z)
| VFloat (f : flt)
| VStr (s : pystr)
| VBytes (bs : list N)
| VDateTime (d : datetime)
| VDate (d : date)
| VTime (t : time)
| VTimeDelta (t : timedelta)
| VUUID (u : N)
| VIPv4 (a : N)
| VIPv6 (a : ipv6)
| VEnum (c : nat) (name : pystr)
| VList (vs : list value)
| VTuple (vs : list value)
| VSet (vs : list value)
| VDict (kvs : list (value * value))
| VObj (c : nat) (attrs : list (pystr * value))
| VOpaque.

Section ValueInd.
  Variable P : value -> Prop.
  Hypothesis Hscalar : forall v,
    match v with
    | VList _ | VTuple _ | VSet _ | VDict _ | VObj _ _ => True
    | _ => P v
    end.
  Hypothesis Hlist : forall vs, Forall P vs -> P (VList vs).
  Hypothesis Htuple : forall vs, Forall P vs -> P (VTuple vs).
  Hypothesis Hset : forall vs, Forall P vs -> P (VSet vs).
  Hypothesis Hdict : forall kvs, Forall (fun kv => P (fst kv) /\ P (snd kv)) kvs -> P (VDict kvs).
  Hypothesis Hobj : forall c attrs, Forall (fun kv => P (snd kv)) attrs -> P (VObj c attrs).

  Fixpoint value_induct (v : value) : P v :=
    let go := fix go (l : list value) : Forall P l :=
      match l with [] => Forall_nil _ | x :: r => Forall_cons _ (value_induct x) (go r) end in
    match v with
    | VList vs => Hlist vs (go vs)
    | VTuple vs => Htuple vs (go vs)
    | VSet vs => Hset vs (go vs)
    | VDict kvs => Hdict kvs
        ((fix god l : Forall (fun kv => P (fst kv) /\ P (snd kv)) l :=
          match l with [] => Forall_nil _
          | kv :: r => Forall_cons kv
              (conj (value_induct (fst kv)) (value_induct (snd kv))) (god r) end) kvs)
    | VObj c attrs => Hobj c attrs
        ((fix goo l : Forall (fun kv => P (snd kv)) l :=
          match l with [] => Forall_nil _
          | kv :: r => Forall_cons kv (value_induct (snd kv)) (goo r) end) attrs)
    | VNone => Hscalar VNone
    | VBool b => Hscalar (VBool b)
    | VInt z => Hscalar (VInt z)
    | VFloat f => Hscalar (VFloat f)
    | VStr s => Hscalar (VStr s)
    | VBytes bs => Hscalar (VBytes bs)
    | VDateTime d => Hscalar (VDateTime d)
    | VDate d => Hscalar (VDate d)
    | VTime d => Hscalar (VTime d)
    | VTimeDelta d => Hscalar (VTimeDelta d)
    | VUUID d => Hscalar (VUUID d)
    | VIPv4 d => Hscalar (VIPv4 d)
    | VIPv6 d => Hscalar (VIPv6 d)
    | VEnum c n => Hscalar (VEnum c n)
    | VOpaque => Hscalar VOpaque
    end.
End ValueInd.

(** A field of a data class: name, type as written ([dataclasses.Field.type]),
    and default.  A default value and a default factory both appear as the
    outcome of evaluating them; factories are taken to be pure. *)
Record field := mkField {
  f_name : pystr;
  f_type : typ;
  f_default : option (res value)
}.

(** Kinds of classes.  Fields of base classes are flattened into the class.
    Members of an enumeration have JSON scalars as values, aliases (repeated
    values) are not members; [enum.Enum] mix-ins are not modelled. *)
Inductive ckind :=
| CEnum (members : list (pystr * json))
| CTuple (hints : list (pystr * typ))        (* typing.NamedTuple *)
| CRawTuple (names : list pystr)             (* collections.namedtuple *)
| CData (frozen : bool) (fields : list field)
| CPlain (hints : list (pystr * typ)).

(** A class with its module, name and optional [from_json] / [to_json] hooks. *)
Record class := mkClass {
  c_module : nat;
  c_name : pystr;
  c_kind : ckind;
  c_from_json : option (json -> res value);
  c_to_json : option (value -> res json)
}.

(** A program: its classes; what a text evaluates to in a module and whether
    it is an attribute of the module ([hasattr], deserializer.py 845, 848); and
    the (hash-seed dependent) iteration order of a set of property names. *)
Record env := mkEnv {
  e_classes : list class;
  e_refs : list (nat * pystr * (bool * typ));
  e_order : list pystr -> list pystr
}.

Definition get_class (E : env) (c : nat) : option class := nth_error (e_classes E) c.

Fixpoint find_ref (rs : list (nat * pystr * (bool * typ))) (m : nat) (s : pystr)
  : option (bool * typ) :=
  match rs with
  | [] => None
  | ((m', s'), r) :: rest => if Nat.eqb m' m && pystr_eqb s' s then Some r else find_ref rest m s
  end.

(** [evaluate_type] (inspection.py 92-118) on the text [s] in module [m]:
    [None] stands for NameError. *)
Definition lookup (E : env) (m : nat) (s : pystr) : option (bool * typ) :=
  find_ref (e_refs E) m s.

(** Annotations of a class as written. *)
Definition raw_fields (k : ckind) : list (pystr * typ) :=
  match k with
  | CEnum _ | CRawTuple _ => []
  | CTuple hs | CPlain hs => hs
  | CData _ fs => map (fun f => (f_name f, f_type f)) fs
  end.

(** Structural equality of annotations, used by [Union] to drop duplicates.
    (Python compares unions and literals as sets; that is finer than needed
    here and not modelled.) *)
Definition scalar_idx (k : scalar) : N :=
  match k with
  | KNone => 0 | KBool => 1 | KInt => 2 | KFloat => 3 | KStr => 4 | KBytes => 5
  | KDateTime => 6 | KDate => 7 | KTime => 8 | KTimeDelta => 9 | KUUID => 10
  | KIPv4 => 11 | KIPv6 => 12
  end%N.

Definition bare_idx (b : bare) : N :=
  match b with BList => 0 | BDict => 1 | BSet => 2 | BTuple => 3 end%N.

Definition lit_eqb (a b : lit) : bool :=
  match a, b with
  | LNone, LNone => true
  | LBool x, LBool y => Bool.eqb x y
  | LInt x, LInt y => Z.eqb x y
  | LStr x, LStr y => pystr_eqb x y
  | LBytes x, LBytes y => pystr_eqb x y
  | LEnum c x, LEnum d y => Nat.eqb c d && pystr_eqb x y
  | _, _ => false
  end.

Definition annot_eqb (a b : annot) : bool :=
  match a, b with
  | AAlias x, AAlias y => pystr_eqb x y
  | AIntegerRange x y, AIntegerRange x' y' => Z.eqb x x' && Z.eqb y y'
  | APrecision x y, APrecision x' y' => N.eqb x x' && N.eqb y y'
  | AMinLength x, AMinLength y => N.eqb x y
  | AMaxLength x, AMaxLength y => N.eqb x y
  | AStorage x, AStorage y => N.eqb x y
  | ASigned x, ASigned y => Bool.eqb x y
  | AOther x, AOther y => N.eqb x y
  | _, _ => false
  end.

Section ListEqb.
  Context {A : Type}.
  Variable f : A -> A -> bool.
  Fixpoint list_eqb (l l' : list A) : bool :=
    match l, l' with
    | [], [] => true
    | x :: r, y :: r' => f x y && list_eqb r r'
    | _, _ => false
    end.
End ListEqb.

Fixpoint typ_eqb (a b : typ) {struct a} : bool :=
  match a, b with
  | TScalar x, TScalar y => N.eqb (scalar_idx x) (scalar_idx y)
  | TBare x, TBare y => N.eqb (bare_idx x) (bare_idx y)
  | TList x, TList y => typ_eqb x y
  | TSet x, TSet y => typ_eqb x y
  | TDict k v, TDict k' v' => typ_eqb k k' && typ_eqb v v'
  | TTuple l, TTuple l' => list_eqb typ_eqb l l'
  | TUnion o l, TUnion o' l' => Bool.eqb o o' && list_eqb typ_eqb l l'
  | TLiteral l, TLiteral l' => list_eqb lit_eqb l l'
  | TAnnot t l, TAnnot t' l' => typ_eqb t t' && list_eqb annot_eqb l l'
  | TClass c, TClass d => Nat.eqb c d
  | TRef s, TRef s' => pystr_eqb s s'
  | TForm, TForm => true
  | _, _ => false
  end.

(** [Union[ts]]: nested unions are flattened, duplicates dropped, a single
    member stands for itself.  [Union[()]] raises TypeError. *)
Definition flatten_union (ts : list typ) : list typ :=
  flat_map (fun t => match t with TUnion _ us => us | _ => [t] end) ts.

Fixpoint dedup (seen : list typ) (ts : list typ) : list typ :=
  match ts with
  | [] => []
  | t :: r => if existsb (typ_eqb t) seen then dedup seen r else t :: dedup (t :: seen) r
  end.

Definition mk_union (op : bool) (ts : list typ) : res typ :=
  match dedup [] (flatten_union ts) with
  | [] => Err EType
  | [t] => Ok t
  | us => Ok (TUnion op us)
  end.

(** [Annotated[t, md]]: nested annotations are merged. *)
Definition mk_annot (t : typ) (md : list annot) : typ :=
  match t with
  | TAnnot u md' => TAnnot u (md' ++ md)
  | _ => TAnnot t md
  end.

(** [typing.get_type_hints(cls, include_extras=True)] on one annotation in
    module [m] (inspection.py 554-555): references are evaluated recursively;
    a reference met again inside its own expansion is left in place ([guard]).
    [n] bounds the number of nested expansions; it is never exhausted when it
    exceeds the number of references of the program. *)
Fixpoint resolve (E : env) (m : nat) (n : nat) (guard : list pystr) {struct n} : typ -> res typ :=
  fix go (t : typ) : res typ :=
    match t with
    | TScalar _ | TBare _ | TLiteral _ | TClass _ | TForm => Ok t
    | TList u => do u' <- go u; Ok (TList u')
    | TSet u => do u' <- go u; Ok (TSet u')
    | TDict k v => do k' <- go k; do v' <- go v; Ok (TDict k' v')
    | TTuple ts => do ts' <- mapM go ts; Ok (TTuple ts')
    | TUnion op ts => do ts' <- mapM go ts; mk_union op ts'
    | TAnnot u md => do u' <- go u; Ok (mk_annot u' md)
    | TRef s =>
        if mem_str s guard then Ok t
        else match lookup E m s with
             | None => Err EName
             | Some (_, t') =>
                 match n with
                 | O => Err ERecursion
                 | S n' => resolve E m n' (s :: guard) t'
                 end
             end
    end.

Definition resolve_hint (E : env) (m : nat) (t : typ) : res typ :=
  resolve E m (S (length (e_refs E))) [] t.

(** [get_resolved_hints(cls)] (inspection.py 554-555). *)
Definition hints (E : env) (c : class) : res (list (pystr * typ)) :=
  mapM (fun '(x, t) => do t' <- resolve_hint E (c_module c) t; Ok (x, t')) (raw_fields (c_kind c)).

(** [get_class_properties] (inspection.py 558-565): field types as written for
    data classes, resolved hints otherwise. *)
Definition class_properties (E : env) (c : class) : res (list (pystr * typ)) :=
  match c_kind c with
  | CData _ _ => Ok (raw_fields (c_kind c))
  | _ => hints E c
  end.

(** [unwrap_annotated_type] (inspection.py 501-509). *)
Definition unwrap_annotated (t : typ) : typ :=
  match t with TAnnot u _ => u | _ => t end.

(** [is_type_optional] (inspection.py 280-298, [strict=False]). *)
Definition is_type_optional (t : typ) : bool :=
  match unwrap_annotated t with
  | TUnion _ ts => existsb (typ_eqb (TScalar KNone)) ts
  | _ => false
  end.

(** [_unwrap_optional_type] (inspection.py 311-322). *)
Definition unwrap_optional_inner (t : typ) : res typ :=
  match t with
  | TUnion _ ts => mk_union false (filter (fun u => negb (typ_eqb (TScalar KNone) u)) ts)
  | _ => Err EType
  end.

(** [unwrap_optional_type], i.e. [rewrap_annotated_type(_unwrap_optional_type, .)]
    (inspection.py 301-308, 512-533). *)
Definition unwrap_optional (t : typ) : res typ :=
  match t with
  | TAnnot u md => do u' <- unwrap_optional_inner u; Ok (mk_annot u' md)
  | _ => unwrap_optional_inner t
  end.

(** [get_annotation(t, Alias)] (inspection.py 483-498). *)
Definition get_alias (t : typ) : option pystr :=
  match t with
  | TAnnot _ md =>
      (fix go l := match l with
                   | [] => None
                   | AAlias a :: _ => Some a
                   | _ :: r => go r
                   end) md
  | _ => None
  end.

(** [type(value)] for an argument of [Literal]. *)
Definition lit_type (l : lit) : typ :=
  match l with
  | LNone => TScalar KNone
  | LBool _ => TScalar KBool
  | LInt _ => TScalar KInt
  | LStr _ => TScalar KStr
  | LBytes _ => TScalar KBytes
  | LEnum c _ => TClass c
  end.

Definition lit_value (l : lit) : value :=
  match l with
  | LNone => VNone
  | LBool b => VBool b
  | LInt z => VInt z
  | LStr s => VStr s
  | LBytes bs => VBytes bs
  | LEnum c n => VEnum c n
  end.

(** The common type of the arguments of a literal; TypeError if they differ
    (deserializer.py 519-529, serializer.py 328-338). *)
Definition literal_type (ls : list lit) : res typ :=
  match ls with
  | [] => Err EType
  | l :: r => if forallb (fun l' => typ_eqb (lit_type l) (lit_type l')) r
              then Ok (lit_type l) else Err EType
  end.

(** [is_type_literal] (inspection.py 357-361) and [unwrap_literal_values]
    (inspection.py 379-388). *)
Definition literal_values (t : typ) : option (list lit) :=
  match unwrap_annotated t with TLiteral ls => Some ls | _ => None end.

(** Lookup of an enumeration member by value, [E(data)] (deserializer.py 548):
    Python equality, ValueError if there is none. *)
Fixpoint enum_find (members : list (pystr * json)) (d : json) : option pystr :=
  match members with
  | [] => None
  | (x, v) :: r => if scalar_eqb v d then Some x else enum_find r d
  end.

(** Hashability (set members, dict keys): lists, dicts, sets and data classes
    that are not frozen are not hashable; tuples, named tuples and frozen data
    classes are if their items are. *)
Fixpoint hashable (E : env) (v : value) : bool :=
  match v with
  | VList _ | VSet _ | VDict _ => false
  | VTuple vs => forallb (hashable E) vs
  | VObj c attrs =>
      match get_class E c with
      | Some cl =>
          match c_kind cl with
          | CData frozen _ => frozen && forallb (fun kv => hashable E (snd kv)) attrs
          | CTuple _ | CRawTuple _ => forallb (fun kv => hashable E (snd kv)) attrs
          | _ => true
          end
      | None => true
      end
  | _ => true
  end.

(** Instants of aware date-times and times, in microseconds. *)
Definition time_us (t : time) : Z :=
  (Z.of_N ((t_hour t * 3600 + t_min t * 60 + t_sec t) * 1000000 + t_us t))%Z.

Definition time_eqb (a b : time) : bool :=
  match t_off a, t_off b with
  | None, None => Z.eqb (time_us a) (time_us b)
  | Some x, Some y => Z.eqb (time_us a - x) (time_us b - y)
  | _, _ => false
  end.

(** Days since a fixed origin. *)
Definition date_ordinal (d : date) : Z :=
  Z.of_N (days_before_year (d_year d) +
          fold_left N.add (map (fun i => days_in_month (d_year d) (N.of_nat i))
                               (seq 1 (N.to_nat (d_month d) - 1))) 0 + d_day d)%N.

Definition datetime_eqb (a b : datetime) : bool :=
  let us d := (date_ordinal (dt_date d) * 86400000000 + time_us (dt_time d))%Z in
  match t_off (dt_time a), t_off (dt_time b) with
  | None, None => Z.eqb (us a) (us b)
  | Some x, Some y => Z.eqb (us a - x) (us b - y)
  | _, _ => false
  end.

Definition date_eqb (a b : date) : bool :=
  N.eqb (d_year a) (d_year b) && N.eqb (d_month a) (d_month b) && N.eqb (d_day a) (d_day b).

Definition td_eqb (a b : timedelta) : bool :=
  Z.eqb (td_days a) (td_days b) && Z.eqb (td_secs a) (td_secs b) && Z.eqb (td_us a) (td_us b).

Definition opt_str_eqb (a b : option pystr) : bool :=
  match a, b with
  | Some x, Some y => pystr_eqb x y
  | None, None => true
  | _, _ => false
  end.

(** Tuples and named tuples compare as sequences of items. *)
Definition tuple_like (E : env) (c : nat) : bool :=
  match get_class E c with
  | Some cl => match c_kind cl with CTuple _ | CRawTuple _ => true | _ => false end
  | None => false
  end.

Definition is_frozen (E : env) (c : nat) : bool :=
  match get_class E c with
  | Some cl => match c_kind cl with CData true _ => true | _ => false end
  | None => false
  end.

Definition value_number (v : value) : option (Z + flt) :=
  match v with
  | VBool b => Some (inl (if b then 1 else 0)%Z)
  | VInt z => Some (inl z)
  | VFloat f => Some (inr f)
  | _ => None
  end.

(** Python [==] between two distinct hashable objects, as used when a set is
    formed.  Objects of plain classes are compared by identity; freshly parsed
    ones are distinct.  (Identity of NaN objects is not tracked: NaN differs
    from NaN.) *)
Fixpoint py_eq (E : env) (a b : value) {struct a} : bool :=
  match value_number a, value_number b with
  | Some x, Some y => number_eqb x y
  | _, _ =>
    match a, b with
    | VNone, VNone => true
    | VStr x, VStr y => pystr_eqb x y
    | VBytes x, VBytes y => pystr_eqb x y
    | VDateTime x, VDateTime y => datetime_eqb x y
    | VDate x, VDate y => date_eqb x y
    | VTime x, VTime y => time_eqb x y
    | VTimeDelta x, VTimeDelta y => td_eqb x y
    | VUUID x, VUUID y => N.eqb x y
    | VIPv4 x, VIPv4 y => N.eqb x y
    | VIPv6 x, VIPv6 y => N.eqb (ip6_addr x) (ip6_addr y) && opt_str_eqb (ip6_scope x) (ip6_scope y)
    | VEnum c x, VEnum d y => Nat.eqb c d && pystr_eqb x y
    | VTuple x, VTuple y => list_eqb (py_eq E) x y
    | VTuple x, VObj d y =>
        tuple_like E d && list_eqb (py_eq E) x (map snd y)
    | VObj c x, VTuple y =>
        tuple_like E c &&
        ((fix go l l' := match l, l' with
                         | [], [] => true
                         | kv :: r, v :: r' => py_eq E (snd kv) v && go r r'
                         | _, _ => false
                         end) x y)
    | VObj c x, VObj d y =>
        ((tuple_like E c && tuple_like E d) || (Nat.eqb c d && is_frozen E c)) &&
        ((fix go l l' := match l, l' with
                         | [], [] => true
                         | kv :: r, kv' :: r' => py_eq E (snd kv) (snd kv') && go r r'
                         | _, _ => false
                         end) x y)
    | _, _ => false
    end
  end.

(** [set(items)]: keeps the first of several equal items. *)
Fixpoint set_of (E : env) (acc : list value) (vs : list value) : list value :=
  match vs with
  | [] => rev acc
  | v :: r => if existsb (fun u => py_eq E u v) acc then set_of E acc r
              else set_of E (v :: acc) r
  end.
