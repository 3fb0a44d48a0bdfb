(** The cache of deserializers (deserializer.py 832-877): deserializer objects
    live on a heap and refer to each other; the cache maps names to objects and
    outlives the call.

    Deserializers of built-in types have no state and are not entered in the
    cache of the model (in the code they are cached under the name of the type in
    its module, which is not a module of the program). *)
From Coq Require Import List NArith Bool.
From Verif Require Import Base Json PyTypes Mapping Deser.
Import ListNotations.
Open Scope list_scope.
Open Scope nat_scope.

(** Deserializer objects: references to other objects are set by [build], hence
    missing ([None]) before it has come to an end.  Only the class deserializers
    consult the options they were created with. *)
Inductive dobj :=
| DScalar (k : scalar)                                  (* 98-265 *)
| DList (item : option nat)                             (* 268-286 *)
| DDict (key : typ) (item : option nat)                 (* 289-343 *)
| DSet (item : option nat)                              (* 346-364 *)
| DTuple (items : option (list nat))                    (* 367-398 *)
| DUnion (members : option (list nat))                  (* 401-426 *)
| DTagged (ps : list pystr)
    (members : option (list (pystr * lit * typ) * list (typ * nat)))  (* 450-506 *)
| DLiteral (ls : list lit) (item : option nat)          (* 509-536 *)
| DEnum (c : nat) (ms : list (pystr * json))            (* 539-548 *)
| DCustom (h : json -> res value)                       (* 551-560 *)
| DClass (c : nat) (cl : class) (skip : bool) (fields : option (list (fparser * nat))). (* 656-796 *)

(** Cache keys: module and name (deserializer.py 846-856). *)
Definition name := (nat * pystr)%type.
Definition name_eqb (a b : name) : bool := Nat.eqb (fst a) (fst b) && pystr_eqb (snd a) (snd b).

(** Objects by address, and the global [_CACHE] (deserializer.py 832). *)
Record store := mkStore { heap : list dobj; cache : list (name * nat) }.

Definition empty : store := mkStore [] [].

Fixpoint find_name (l : list (name * nat)) (k : name) : option nat :=
  match l with
  | [] => None
  | (k', i) :: r => if name_eqb k' k then Some i else find_name r k
  end.

Fixpoint set_nth {A} (l : list A) (i : nat) (x : A) : list A :=
  match l, i with
  | [], _ => []
  | _ :: r, O => x :: r
  | y :: r, S i' => y :: set_nth r i' x
  end.

(** Allocation of an object, entered in the cache under [k] if given
    (deserializer.py 861-864, 873-875). *)
Definition alloc (st : store) (k : option name) (o : dobj) : store :=
  mkStore (heap st ++ [o])
          (match k with Some x => (x, length (heap st)) :: cache st | None => cache st end).

Definition update (st : store) (i : nat) (o : dobj) : store := mkStore (set_nth (heap st) i o) (cache st).

(** Runs [f] over a list, threading the state; the state survives an
    exception. *)
Section Each.
  Context {A : Type}.
  Variable f : A -> store -> res nat * store.
  Fixpoint each (l : list A) (st : store) : res (list nat) * store :=
    match l with
    | [] => (Ok [], st)
    | x :: r =>
        match f x st with
        | (Err e, st1) => (Err e, st1)
        | (Ok i, st1) =>
            match each r st1 with
            | (Err e, st2) => (Err e, st2)
            | (Ok is, st2) => (Ok (i :: is), st2)
            end
        end
    end.
End Each.

(** [_get_deserializer(typ, context, options)] (deserializer.py 835-877), with
    [_create_deserializer] (880-974) and the [build] methods.  [key] is the name
    under which a special form is entered in the cache (842-848).  As in
    [Deser.build], duplicate tags are reported before the members of a tagged
    union are built. *)
Fixpoint get_deser (E : env) (skip : bool) (n : nat) (key : option name) (m : nat) (t : typ) (st : store) {struct n}
  : res nat * store :=
  match n with
  | O => (Err ERecursion, st)
  | S n' =>
    let self := length (heap st) in
    (* create the object, enter it in the cache, build one dependency *)
    let one o mk u :=
      match get_deser E skip n' None m u (alloc st key o) with
      | (Err e, st1) => (Err e, st1)
      | (Ok i, st1) => (Ok self, update st1 self (mk i))
      end in
    let many o mk ts :=
      match each (get_deser E skip n' None m) ts (alloc st key o) with
      | (Err e, st1) => (Err e, st1)
      | (Ok is, st1) => (Ok self, update st1 self (mk is))
      end in
    match t with
    | TScalar k => (Ok self, alloc st None (DScalar k))
    | TBare _ | TForm => (Err EType, st)
    | TList u => one (DList None) (fun i => DList (Some i)) u
    | TSet u => one (DSet None) (fun i => DSet (Some i)) u
    | TDict k u =>
        match check_key_type E k with
        | Err e => (Err e, st)
        | Ok _ => one (DDict k None) (fun i => DDict k (Some i)) u
        end
    | TTuple ts => many (DTuple None) (fun is => DTuple (Some is)) ts
    | TUnion _ ts =>
        match discriminating_properties E ts with
        | Err e => (Err e, st)
        | Ok [] => many (DUnion None) (fun is => DUnion (Some is)) ts
        | Ok ps =>
            let ps' := e_order E ps in
            match tag_table E ps' ts with
            | Err e => (Err e, alloc st key (DTagged ps' None))
            | Ok tbl =>
                if tags_distinct [] tbl
                then many (DTagged ps' None) (fun is => DTagged ps' (Some (tbl, combine ts is))) ts
                else (Err EJsonType, alloc st key (DTagged ps' None))
            end
        end
    | TLiteral ls =>
        match literal_type ls with
        | Err e => (Err e, alloc st key (DLiteral ls None))
        | Ok u => one (DLiteral ls None) (fun i => DLiteral ls (Some i)) u
        end
    | TAnnot u _ =>
        match u with
        | TRef _ => (Err EType, st)
        | _ => get_deser E skip n' key m u st
        end
    | TClass c =>
        match get_class E c with
        | None => (Err EUnmodelled, st)
        | Some cl =>
            let k := (c_module cl, c_name cl) in
            match find_name (cache st) k with
            | Some i => (Ok i, st)
            | None =>
                match c_kind cl, c_from_json cl with
                | CEnum ms, _ => (Ok self, alloc st (Some k) (DEnum c ms))
                | CData _ _, Some h | CPlain _, Some h => (Ok self, alloc st (Some k) (DCustom h))
                | _, _ =>
                    let st0 := alloc st (Some k) (DClass c cl skip None) in
                    match field_parsers E cl with
                    | Err e => (Err e, st0)
                    | Ok fps =>
                        match each (fun fp => get_deser E skip n' None (c_module cl) (fp_type fp)) fps st0 with
                        | (Err e, st1) => (Err e, st1)
                        | (Ok is, st1) => (Ok self, update st1 self (DClass c cl skip (Some (combine fps is))))
                        end
                    end
                end
            end
        end
    | TRef s =>
        match lookup E m s with
        | None => (Err EName, st)
        | Some (attr, u) =>
            match deref u with
            | TRef _ => (Err EType, st)
            | TScalar _ | TBare _ | TClass _ => get_deser E skip n' None m (deref u) st
            | u' =>
                if attr then
                  match find_name (cache st) (m, s) with
                  | Some i => (Ok i, st)
                  | None => get_deser E skip n' (Some (m, s)) m u' st
                  end
                else get_deser E skip n' None m u' st
            end
        end
    end
  end.

(** [self.member_parsers[...]] by member type (deserializer.py 479, 496). *)
Fixpoint find_member (l : list (typ * nat)) (t : typ) : option nat :=
  match l with
  | [] => None
  | (u, i) :: r => if typ_eqb u t then Some i else find_member r t
  end.

(** Distributes parsers over the items of an array (deserializer.py 398). *)
Section ZipItems.
  Variable p : nat -> json -> res value.
  Fixpoint zip_items (is : list nat) (js : list json) : res (list value) :=
    match is, js with
    | i :: is', j :: js' =>
        match p i j with
        | Err e => Err e
        | Ok v => match zip_items is' js' with Err e => Err e | Ok vs => Ok (v :: vs) end
        end
    | _, _ => Ok []
    end.

  (** deserializer.py 414-426 *)
  Fixpoint try_members (is : list nat) (j : json) : res value :=
    match is with
    | [] => Err EJsonKey
    | i :: r =>
        match p i j with
        | Err EJsonKey | Err EJsonType => try_members r j
        | o => o
        end
    end.
End ZipItems.

(** [deserializer.parse(data)] for the object at an address (deserializer.py
    98-796); a reference that was not set by [build] raises AttributeError when
    it is needed.  [n] bounds the depth of recursion. *)
Fixpoint run (E : env) (h : list dobj) (n : nat) (i : nat) (j : json) {struct n} : res value :=
  match n with
  | O => Err ERecursion
  | S n' =>
    let at_ r x := match r with Some i' => run E h n' i' x | None => Err EAttribute end in
    match nth_error h i with
    | None => Err EUnmodelled
    | Some (DScalar k) => parse_scalar k j
    | Some (DList r) =>
        match j with
        | JArr js => do vs <- mapM (at_ r) js; Ok (VList vs)
        | _ => Err EJsonType
        end
    | Some (DSet r) =>
        match j with
        | JArr js =>
            do vs <- mapM (fun x => do v <- at_ r x; if hashable E v then Ok v else Err EType) js;
            Ok (VSet (set_of E [] vs))
        | _ => Err EJsonType
        end
    | Some (DDict k r) =>
        match j with
        | JObj o =>
            do kvs <- mapM (fun '(s, x) => do kv <- parse_key E k s; do v <- at_ r x; Ok (kv, v)) o;
            Ok (VDict kvs)
        | _ => Err EJsonType
        end
    | Some (DTuple rs) =>
        match j with
        | JArr js =>
            match rs with
            | None => Err EAttribute
            | Some is => if Nat.eqb (length js) (length is)
                         then do vs <- zip_items (run E h n') is js; Ok (VTuple vs)
                         else Err EJsonValue
            end
        | _ => Err EJsonType
        end
    | Some (DUnion None) => Err EAttribute
    | Some (DUnion (Some is)) => try_members (run E h n') is j
    | Some (DTagged ps None) => Err EUnmodelled   (* the table is filled in part *)
    | Some (DTagged ps (Some (tbl, ms))) =>
        match j with
        | JObj o =>
            do u <- tag_select tbl ps o;
            match find_member ms u with Some i' => run E h n' i' j | None => Err EUnmodelled end
        | _ => Err EJsonType
        end
    | Some (DLiteral ls r) =>
        do v <- at_ r j;
        if existsb (fun l => py_eq E (lit_value l) v) ls then Ok v else Err EJsonType
    | Some (DEnum c ms) => parse_enum c ms j
    | Some (DCustom h) => h j
    | Some (DClass c cl skip fs) =>
        match j with
        | JObj o =>
            match fs with
            | None => Err EAttribute
            | Some fs =>
                do vals <- mapM (fun '(fp, i') => do v <- parse_field (fun _ => run E h n' i') fp o; Ok (fp_name fp, v)) fs;
                if skip || forallb (fun kv => mem_str (fst kv) (map (fun f => fp_prop (fst f)) fs)) o
                then match c_kind cl with
                     | CRawTuple (_ :: _) => Err EType
                     | _ => Ok (VObj c vals)
                     end
                else Err EJsonKey
            end
        | _ => Err EJsonType
        end
    end
  end.

(** [create_deserializer(typ, options=...)] (deserializer.py 799-829) in an
    interpreter with state [st]. *)
Definition create_in (E : env) (skip : bool) (m : nat) (t : typ) (st : store) : res nat * store :=
  get_deser E skip (build_fuel E t) None m t st.

(** [json_to_object(typ, data, options=...)] (serialization.py 40-60) in an
    interpreter with state [st]. *)
Definition json_to_object_in (E : env) (skip : bool) (m : nat) (t : typ) (j : json) (st : store) : res value * store :=
  match create_in E skip m t st with
  | (Err e, st1) => (Err e, st1)
  | (Ok i, st1) => (run E (heap st1) (parse_fuel E t j) i j, st1)
  end.
