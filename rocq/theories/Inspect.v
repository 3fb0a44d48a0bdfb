(** Inspection of values: [is_generic_instance], [RecursiveChecker] and
    [check_recursive] of strong_typing/inspection.py. *)
From Coq Require Import String List NArith ZArith Bool.
From Verif Require Import Base Json PyTypes Ser.
Import ListNotations.
Open Scope list_scope.
Open Scope nat_scope.

(** [all(f(x) for x in l)] and [any(...)]: evaluation stops when the outcome is
    known. *)
Section All.
  Context {A : Type}.
  Variable f : A -> res bool.
  Fixpoint allM (l : list A) : res bool :=
    match l with
    | [] => Ok true
    | x :: r => match f x with Err e => Err e | Ok false => Ok false | Ok true => allM r end
    end.
  Fixpoint anyM (l : list A) : res bool :=
    match l with
    | [] => Ok false
    | x :: r => match f x with Err e => Err e | Ok true => Ok true | Ok false => anyM r end
    end.
End All.

Definition is_tuple_class (E : env) (c : nat) : bool :=
  match get_class E c with
  | Some cl => match c_kind cl with CTuple _ | CRawTuple _ => true | _ => false end
  | None => false
  end.

(** The items of an instance of [tuple]; attributes of a named tuple are listed in
    the order of its fields. *)
Definition tuple_items (E : env) (v : value) : option (list value) :=
  match v with
  | VTuple vs => Some vs
  | VObj c attrs => if is_tuple_class E c then Some (map snd attrs) else None
  | _ => None
  end.

(** [isinstance(obj, typ)] for the types that are classes: [bool] is a subclass of
    [int], [datetime] of [date], and named tuples of [tuple]; the classes of a
    program do not extend each other. *)
Definition isinstance (E : env) (v : value) (t : typ) : bool :=
  match t with
  | TScalar KNone => match v with VNone => true | _ => false end
  | TScalar KBool => match v with VBool _ => true | _ => false end
  | TScalar KInt => match v with VInt _ | VBool _ => true | _ => false end
  | TScalar KFloat => match v with VFloat _ => true | _ => false end
  | TScalar KStr => match v with VStr _ => true | _ => false end
  | TScalar KBytes => match v with VBytes _ => true | _ => false end
  | TScalar KDateTime => match v with VDateTime _ => true | _ => false end
  | TScalar KDate => match v with VDate _ | VDateTime _ => true | _ => false end
  | TScalar KTime => match v with VTime _ => true | _ => false end
  | TScalar KTimeDelta => match v with VTimeDelta _ => true | _ => false end
  | TScalar KUUID => match v with VUUID _ => true | _ => false end
  | TScalar KIPv4 => match v with VIPv4 _ => true | _ => false end
  | TScalar KIPv6 => match v with VIPv6 _ => true | _ => false end
  | TBare BList => match v with VList _ => true | _ => false end
  | TBare BDict => match v with VDict _ => true | _ => false end
  | TBare BSet => match v with VSet _ => true | _ => false end
  | TBare BTuple => match tuple_items E v with Some _ => true | None => false end
  | TClass c => match v with VEnum d _ | VObj d _ => Nat.eqb d c | _ => false end
  | _ => false
  end.

(** inspection.py 815-877: [is_generic_instance].  Forward references, which are
    evaluated among the names of inspection.py, are not modelled. *)
Fixpoint is_generic_instance (E : env) (v : value) (t : typ) {struct t} : res bool :=
  match t with
  | TRef _ => Err EUnmodelled
  | TList u => match v with VList vs => allM (fun x => is_generic_instance E x u) vs | _ => Ok false end
  | TDict k u =>
      match v with
      | VDict kvs => allM (fun kv => match is_generic_instance E (fst kv) k with
                                     | Ok true => is_generic_instance E (snd kv) u
                                     | r => r
                                     end) kvs
      | _ => Ok false
      end
  | TSet u => match v with VSet vs => allM (fun x => is_generic_instance E x u) vs | _ => Ok false end
  | TTuple ts =>
      match tuple_items E v with
      | Some vs =>
          (fix zip (ts : list typ) (vs : list value) : res bool :=
             match ts, vs with
             | t :: ts', x :: vs' =>
                 match is_generic_instance E x t with Err e => Err e | Ok false => Ok false | Ok true => zip ts' vs' end
             | _, _ => Ok true
             end) ts vs
      | None => Ok false
      end
  | TUnion false ts => anyM (is_generic_instance E v) ts
  | TScalar _ | TBare _ | TClass _ => Ok (isinstance E v t)
  | TUnion true _ | TLiteral _ | TAnnot _ _ | TForm => Err EType
  end.

(** [typing._strip_annotations] of CPython 3.11, which [typing.get_type_hints]
    applies unless told to keep annotations. *)
Fixpoint strip_annotations (t : typ) : res typ :=
  match t with
  | TAnnot u _ => strip_annotations u
  | TList u => do u' <- strip_annotations u; Ok (TList u')
  | TSet u => do u' <- strip_annotations u; Ok (TSet u')
  | TDict k u => do k' <- strip_annotations k; do u' <- strip_annotations u; Ok (TDict k' u')
  | TTuple ts => do ts' <- mapM strip_annotations ts; Ok (TTuple ts')
  | TUnion op ts => do ts' <- mapM strip_annotations ts; mk_union op ts'
  | _ => Ok t
  end.

(** The property types of a class that [RecursiveChecker.check] recurses into
    (inspection.py 968-987). *)
Definition checked_fields (E : env) (cl : class) : res (list (pystr * typ)) :=
  do hs <- hints E cl;
  match c_kind cl with
  | CTuple _ | CRawTuple _ => mapM (fun '(x, t) => do t' <- strip_annotations t; Ok (x, t')) hs
  | _ => Ok hs
  end.

Section Check.
  Variable E : env.
  Variable pred : typ -> value -> bool.

  (** inspection.py 899-987: [RecursiveChecker.check]; [n] bounds the depth of
      recursion. *)
  Fixpoint check (n : nat) (t : typ) (v : value) {struct n} : res bool :=
    match n with
    | O => Err ERecursion
    | S n' =>
      match t with
      | TScalar KIPv4 | TScalar KIPv6 | TBare _ => if isinstance E v t then Ok true else Err EType   (* 980-987, no annotations *)
      | TScalar _ => Ok (pred t v)                                                                  (* 909-922 *)
      | TList u => match v with VList vs => allM (check n' u) vs | _ => Err EType end
      | TDict _ u => match v with VDict kvs => allM (fun kv => check n' u (snd kv)) kvs | _ => Err EType end
      | TSet u => match v with VSet vs => allM (check n' u) vs | _ => Err EType end
      | TTuple ts =>
          match tuple_items E v with
          | Some vs => allM (fun p => check n' (fst p) (snd p)) (combine ts vs)
          | None => Err EType
          end
      | TUnion false _ => Ok (pred t v)
      | TClass c =>
          match get_class E c with
          | None => Err EUnmodelled
          | Some cl =>
              match c_kind cl with
              | CEnum _ => match v with VEnum _ _ => Ok (pred t v) | _ => Err EType end
              | k =>
                  let instance := match k with
                                  | CTuple _ | CRawTuple _ => match tuple_items E v with Some _ => true | None => false end
                                  | _ => isinstance E v t
                                  end in
                  if instance then
                    do fs <- checked_fields E cl;
                    allM (fun f => match v with
                                   | VObj _ attrs => match dict_get attrs (fst f) with
                                                     | Some x => check n' (snd f) x
                                                     | None => Err EAttribute
                                                     end
                                   | _ => Err EAttribute
                                   end) fs
                  else Err EType
              end
          end
      | TUnion true _ | TLiteral _ | TAnnot _ _ | TRef _ | TForm => Err EType
      end
    end.
End Check.

(** inspection.py 990-1028: [check_recursive]. *)
Definition check_recursive (E : env) (v : value) (pred : option (typ -> value -> bool))
  (type_pred : option (typ -> bool)) (value_pred : option (value -> bool)) : res bool :=
  do p <- match type_pred, value_pred with
          | Some tp, Some vp => match pred with Some _ => Err EType | None => Ok (fun t x => negb (tp t) || vp x) end
          | None, Some vp => match pred with Some _ => Err EType | None => Ok (fun _ x => vp x) end
          | Some _, None => Err EType
          | None, None => match pred with Some p => Ok p | None => Ok (fun _ _ => true) end
          end;
  check E p (S (vdepth v)) (typeof v) v.
