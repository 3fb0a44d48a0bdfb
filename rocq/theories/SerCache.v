(** The memoisation of serializers: [functools.lru_cache] on [_fetch_serializer]
    (serializer.py 423-426).  The table outlives the call; exceptions are not
    memoised, but leave behind what was memoised before they were raised.

    Serializers of built-in types have no state and are not entered in the table
    of the model.  Serializers are not altered once created, so the table holds
    them by value. *)
From Coq Require Import String List NArith ZArith Bool.
From Verif Require Import Base Json PyTypes Mapping Deser Ser.
Import ListNotations.
Open Scope list_scope.
Open Scope nat_scope.

Definition memo := list (nat * ser).

Fixpoint memo_get (C : memo) (c : nat) : option ser :=
  match C with
  | [] => None
  | (d, s) :: r => if Nat.eqb d c then Some s else memo_get r c
  end.

(** Computations that read and extend the table. *)
Definition sret {A} (r : res A) (C : memo) : res A * memo := (r, C).
Definition sbind {A B} (m : memo -> res A * memo) (f : A -> memo -> res B * memo) (C : memo) : res B * memo :=
  match m C with
  | (Ok a, C1) => f a C1
  | (Err e, C1) => (Err e, C1)
  end.
Notation "'run' x <- m ; f" := (sbind m (fun x => f)) (at level 200, x pattern, m at level 100, f at level 200).

Section MapS.
  Context {A B : Type}.
  Variable f : A -> memo -> res B * memo.
  Fixpoint mapS (l : list A) (C : memo) : res (list B) * memo :=
    match l with
    | [] => (Ok [], C)
    | x :: r =>
        match f x C with
        | (Err e, C1) => (Err e, C1)
        | (Ok y, C1) => match mapS r C1 with (Err e, C2) => (Err e, C2) | (Ok ys, C2) => (Ok (y :: ys), C2) end
        end
    end.
End MapS.

(** [_get_serializer] / [_create_serializer] (serializer.py 409-517), as [mkser]. *)
Fixpoint mkser_in (E : env) (n : nat) (ctx : option nat) (t : typ) {struct n} : memo -> res ser * memo :=
  match n with
  | O => sret (Err ERecursion)
  | S n' =>
    match t with
    | TScalar k => sret (Ok (GScalar k))
    | TBare b => sret (Ok (GBare b))
    | TUnion _ _ => sret (Ok GUnion)
    | TList u => run s <- mkser_in E n' ctx u; sret (Ok (GList s))
    | TSet u => run s <- mkser_in E n' ctx u; sret (Ok (GSet s))
    | TDict k u =>
        match k with
        | TScalar KStr => run s <- mkser_in E n' ctx u; sret (Ok (GStrDict s))
        | TClass c =>
            match get_class E c with
            | Some cl =>
                match c_kind cl with
                | CEnum ms =>
                    run s <- mkser_in E n' ctx u;
                    sret (if forallb (fun x => is_str_json (snd x)) ms && negb (Nat.eqb (length ms) 0)
                          then Ok (GEnumDict s) else Err EJsonType)
                | _ => sret (Err EType)
                end
            | None => sret (Err EUnmodelled)
            end
        | _ => sret (Err EType)
        end
    | TTuple ts => run ss <- mapS (mkser_in E n' ctx) ts; sret (Ok (GTuple ss))
    | TLiteral ls => run u <- sret (literal_type ls); run s <- mkser_in E n' ctx u; sret (Ok (GLiteral s))
    | TAnnot u _ => mkser_in E n' None u
    | TClass c => fun C =>
        match memo_get C c with
        | Some s => (Ok s, C)                                            (* 423: hit *)
        | None =>
            let made :=
              match get_class E c with
              | None => sret (Err EUnmodelled)
              | Some cl =>
                  match c_to_json cl with
                  | Some h => sret (Ok (GCustom h))
                  | None =>
                      let typed := run ps <- sret (class_properties E cl);
                                   run fs <- mapS (fun '(x, u) =>
                                              run s <- mkser_in E n' (Some (c_module cl)) u;
                                              sret (Ok (x, json_property x (Some u), s))) ps;
                                   sret (Ok (GClass fs)) in
                      match c_kind cl with
                      | CEnum _ => sret (Ok GEnum)
                      | CData _ _ => typed
                      | CTuple [] => sret (Ok (GRawTuple []))
                      | CTuple _ => typed
                      | CRawTuple xs => sret (Ok (GRawTuple (map (fun x => (x, json_property x None)) xs)))
                      | CPlain [] => sret (Ok GUntyped)
                      | CPlain _ => typed
                      end
                  end
              end in
            match made C with
            | (Ok s, C1) => (Ok s, (c, s) :: C1)                         (* miss, entered *)
            | (Err e, C1) => (Err e, C1)
            end
        end
    | TRef s =>
        match ctx with
        | None => sret (Err EType)
        | Some m =>
            match lookup E m s with
            | None => sret (Err EName)
            | Some (_, TRef _) => sret (Err EType)
            | Some (_, u) => mkser_in E n' ctx u
            end
        end
    | TForm => sret (Err EType)
    end
  end.

(** [create_serializer(typ, context)] (serializer.py 384-406) *)
Definition create_serializer_in (E : env) (ctx : option nat) (t : typ) : memo -> res ser * memo :=
  mkser_in E (ser_fuel E t) ctx t.

Section Generate.
  Variable E : env.
  (** The types for which a custom [to_json] creates serializers while it handles
      the value; its outcome depends on the value alone. *)
  Variable within : value -> list typ.

  Definition run_hook (h : value -> res json) (v : value) (C : memo) : res json * memo :=
    (h v, fold_left (fun C t => snd (create_serializer_in E None t C)) (within v) C).

  Section Lists.
    Variable g : ser -> value -> memo -> res json * memo.
    Fixpoint zip_gen_in (ss : list ser) (vs : list value) (C : memo) : res (list json) * memo :=
      match ss, vs with
      | s :: ss', v :: vs' =>
          match g s v C with
          | (Err e, C1) => (Err e, C1)
          | (Ok j, C1) => match zip_gen_in ss' vs' C1 with (Err e, C2) => (Err e, C2) | (Ok js, C2) => (Ok (j :: js), C2) end
          end
      | _, _ => (Ok [], C)
      end.

    Fixpoint gen_fields_in (attrs : list (pystr * value)) (fs : list (pystr * pystr * ser))
      (acc : list (pystr * json)) (C : memo) : res (list (pystr * json)) * memo :=
      match fs with
      | [] => (Ok acc, C)
      | (x, p, s) :: r =>
          match dict_get attrs x with
          | None => (Err EAttribute, C)
          | Some VNone => gen_fields_in attrs r acc C
          | Some v => match g s v C with
                      | (Err e, C1) => (Err e, C1)
                      | (Ok j, C1) => gen_fields_in attrs r (dict_set acc p j) C1
                      end
          end
      end.
  End Lists.

  (** [serializer.generate(obj)] (serializer.py 48-381), as [gen]. *)
  Fixpoint gen_in (n : nat) (s : ser) (v : value) {struct n} : memo -> res json * memo :=
    match n with
    | O => sret (Err ERecursion)
    | S n' =>
      let otj v := run s <- create_serializer_in E None (typeof v); gen_in n' s v in
      match s with
      | GScalar k => sret (gen_scalar k v)
      | GEnum => sret (enum_value E v)
      | GUnion => otj v
      | GLiteral s' => gen_in n' s' v
      | GCustom h => run_hook h v
      | GBare BList => match v with VList vs => run js <- mapS otj vs; sret (Ok (JArr js)) | _ => sret (Err EUnmodelled) end
      | GBare BSet => match v with VSet vs => run js <- mapS otj vs; sret (Ok (JArr js)) | _ => sret (Err EUnmodelled) end
      | GBare BTuple => match v with VTuple vs => run js <- mapS otj vs; sret (Ok (JArr js)) | _ => sret (Err EUnmodelled) end
      | GBare BDict =>
          match v with
          | VDict kvs =>
              let key := if first_is_enum kvs then enum_key E else str_key in
              run ps <- mapS (fun '(k, x) => run k' <- sret (key k); run j <- otj x; sret (Ok (k', j))) kvs;
              sret (Ok (JObj (dict_of ps)))
          | _ => sret (Err EUnmodelled)
          end
      | GList s' => match v with VList vs => run js <- mapS (gen_in n' s') vs; sret (Ok (JArr js)) | _ => sret (Err EUnmodelled) end
      | GSet s' => match v with VSet vs => run js <- mapS (gen_in n' s') vs; sret (Ok (JArr js)) | _ => sret (Err EUnmodelled) end
      | GTuple ss => match v with VTuple vs => run js <- zip_gen_in (gen_in n') ss vs; sret (Ok (JArr js)) | _ => sret (Err EUnmodelled) end
      | GStrDict s' =>
          match v with
          | VDict kvs =>
              run ps <- mapS (fun '(k, x) => run k' <- sret (str_key k); run j <- gen_in n' s' x; sret (Ok (k', j))) kvs;
              sret (Ok (JObj (dict_of ps)))
          | _ => sret (Err EUnmodelled)
          end
      | GEnumDict s' =>
          match v with
          | VDict kvs =>
              run ps <- mapS (fun '(k, x) => run k' <- sret (enum_key E k); run j <- gen_in n' s' x; sret (Ok (k', j))) kvs;
              sret (Ok (JObj (dict_of ps)))
          | _ => sret (Err EUnmodelled)
          end
      | GClass fs =>
          match v with
          | VObj _ attrs => run o <- gen_fields_in (gen_in n') attrs fs []; sret (Ok (JObj o))
          | _ => sret (Err EUnmodelled)
          end
      | GRawTuple fs =>
          match v with
          | VObj _ attrs =>
              run ps <- mapS (fun '(x, p) => match dict_get attrs x with
                                            | None => sret (Err EAttribute)
                                            | Some u => run j <- otj u; sret (Ok (p, j))
                                            end) fs;
              sret (Ok (JObj (dict_of ps)))
          | _ => sret (Err EUnmodelled)
          end
      | GUntyped =>
          match v with
          | VObj _ attrs =>
              run ps <- mapS (fun '(x, u) => run j <- otj u; sret (Ok (json_property x None, j)))
                            (filter (fun a => negb (is_reserved (fst a)) && negb (is_none (snd a)))
                                    (sort_attrs attrs));
              sret (Ok (JObj (dict_of ps)))
          | _ => sret (Err EUnmodelled)
          end
      end
    end.

  (** [object_to_json(obj)] (serializer.py 520-535) *)
  Definition object_to_json_in (v : value) : memo -> res json * memo :=
    run s <- create_serializer_in E None (typeof v);
    gen_in (gen_fuel v) s v.

  (** What a program does before: it serializes values, and creates serializers. *)
  Inductive call := Serialize (v : value) | Create (ctx : option nat) (t : typ).

  Definition perform (C : memo) (a : call) : memo :=
    match a with
    | Serialize v => snd (object_to_json_in v C)
    | Create ctx t => snd (create_serializer_in E ctx t C)
    end.

  Definition after_calls (calls : list call) : memo := fold_left perform calls [].
End Generate.
