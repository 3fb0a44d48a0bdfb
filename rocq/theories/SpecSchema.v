(** The meaning of JSON schemas: the part of JSON Schema 2020-12 (core and
    validation vocabularies) that covers the keywords the library writes. *)
From Coq Require Import String List NArith ZArith Bool.
From Verif Require Import Base Json.
Import ListNotations.
Open Scope list_scope.
Open Scope nat_scope.

(** ** Data *)

(** A float that is a whole number. *)
Definition whole (f : flt) : bool :=
  match f with
  | FFin _ m e => (0 <=? e)%Z || (m mod 2 ^ Z.to_N (- e) =? 0)%N
  | _ => false
  end.

(** Numbers: equality and order of their mathematical values; infinities and
    NaN, which are not JSON, equal nothing. *)
Definition num_of (j : json) : option (Z * Z) :=     (* z * 2 ^ e *)
  match j with
  | JInt z => Some (z, 0%Z)
  | JFloat (FFin neg m e) => Some ((if neg then - Z.of_N m else Z.of_N m)%Z, e)
  | _ => None
  end.

Definition num_cmp (a b : Z * Z) : comparison :=
  let '(x, e) := a in let '(y, f) := b in
  let g := Z.min e f in
  Z.compare (x * 2 ^ (e - g))%Z (y * 2 ^ (f - g))%Z.

Definition num_eqb (a b : Z * Z) : bool := match num_cmp a b with Eq => true | _ => false end.
Definition num_ltb (a b : Z * Z) : bool := match num_cmp a b with Lt => true | _ => false end.

(** Equality of JSON data (core, 4.2.2): objects are unordered. *)
Fixpoint same (a b : json) {struct a} : bool :=
  match a, b with
  | JNull, JNull => true
  | JBool x, JBool y => Bool.eqb x y
  | JStr x, JStr y => pystr_eqb x y
  | JInt _, JInt _ | JInt _, JFloat _ | JFloat _, JInt _ | JFloat _, JFloat _ =>
      match num_of a, num_of b with Some x, Some y => num_eqb x y | _, _ => false end
  | JArr l, JArr l' =>
      (fix go l l' := match l, l' with
                      | [], [] => true
                      | x :: r, y :: r' => same x y && go r r'
                      | _, _ => false
                      end) l l'
  | JObj o, JObj o' =>
      Nat.eqb (length o) (length o') &&
      (fix go o := match o with
                   | [] => true
                   | (k, x) :: r => match dict_get o' k with Some y => same x y | None => false end && go r
                   end) o
  | _, _ => false
  end.

Fixpoint distinct (l : list json) : bool :=
  match l with
  | [] => true
  | x :: r => negb (existsb (same x) r) && distinct r
  end.

(** ** Verdicts *)

(** [None] stands for no verdict: a reference that does not lead to a schema, a
    keyword that is not covered here, or a schema that refers to itself without
    end. *)
Definition verdict := option bool.

Fixpoint all_of (l : list verdict) : verdict :=
  match l with
  | [] => Some true
  | Some false :: _ => Some false
  | Some true :: r => all_of r
  | None :: r => match all_of r with Some false => Some false | _ => None end
  end.

(** How many hold; a verdict is needed on each of them. *)
Fixpoint count (l : list verdict) : option nat :=
  match l with
  | [] => Some 0
  | Some b :: r => match count r with Some n => Some (if b then S n else n) | None => None end
  | None :: _ => None
  end.

Definition exactly_one (l : list verdict) : verdict :=
  match count l with Some n => Some (Nat.eqb n 1) | None => None end.

(** ** Patterns *)

(** Characters that stand for themselves in a regular expression. *)
Definition literal_char (c : N) : bool :=
  ((48 <=? c) && (c <=? 57) || (65 <=? c) && (c <=? 90) || (97 <=? c) && (c <=? 122) ||
   (c =? 95) || (c =? 45) || (c =? 32))%N.

(** Splits at ["|"]. *)
Fixpoint alternatives (acc : pystr) (s : pystr) : list pystr :=
  match s with
  | [] => [rev acc]
  | c :: r => if (c =? 124)%N then rev acc :: alternatives [] r else alternatives (c :: acc) r
  end.

(** Only patterns of the form [^(a|b|c)$] with literal alternatives are given
    a meaning. *)
Definition matches (p s : pystr) : verdict :=
  match p with
  | 94%N :: 40%N :: r =>
      match rev r with
      | 36%N :: 41%N :: q =>
          let alts := alternatives [] (rev q) in
          if forallb (forallb literal_char) alts then Some (existsb (pystr_eqb s) alts) else None
      | _ => None
      end
  | _ => None
  end.

(** ** References *)

(** Splits at ["/"]. *)
Fixpoint tokens (acc : pystr) (s : pystr) : list pystr :=
  match s with
  | [] => [rev acc]
  | c :: r => if (c =? 47)%N then rev acc :: tokens [] r else tokens (c :: acc) r
  end.

Fixpoint walk (j : json) (path : list pystr) : option json :=
  match path with
  | [] => Some j
  | k :: r => match j with JObj o => match dict_get o k with Some x => walk x r | None => None end | _ => None end
  end.

(** A JSON pointer in a fragment, without escapes. *)
Definition points_to (root : json) (r : pystr) : option json :=
  if existsb (fun c => (c =? 126)%N || (c =? 37)%N) r then None
  else match r with
       | 35%N :: 47%N :: p => walk root (tokens [] p)
       | _ => None
       end.

(** ** Keywords *)

Definition is_type (s : pystr) (d : json) : verdict :=
  if pystr_eqb s (str "null") then Some (match d with JNull => true | _ => false end)
  else if pystr_eqb s (str "boolean") then Some (match d with JBool _ => true | _ => false end)
  else if pystr_eqb s (str "integer") then Some (match d with JInt _ => true | JFloat f => whole f | _ => false end)
  else if pystr_eqb s (str "number") then Some (match d with JInt _ | JFloat _ => true | _ => false end)
  else if pystr_eqb s (str "string") then Some (match d with JStr _ => true | _ => false end)
  else if pystr_eqb s (str "array") then Some (match d with JArr _ => true | _ => false end)
  else if pystr_eqb s (str "object") then Some (match d with JObj _ => true | _ => false end)
  else None.

Definition number_test (d x : json) (f : Z * Z -> Z * Z -> bool) : verdict :=
  match num_of x with
  | None => None
  | Some y =>
      match d with
      | JInt _ | JFloat _ => match num_of d with Some v => Some (f v y) | None => None end
      | _ => Some true
      end
  end.

(** [d] is a whole multiple of [x]. *)
Definition multiple (a b : Z * Z) : bool :=
  let '(x, e) := a in let '(y, f) := b in
  let g := Z.min e f in
  let y' := (y * 2 ^ (f - g))%Z in
  negb (Z.eqb y' 0) && (x * 2 ^ (e - g) mod y' =? 0)%Z.

Definition size_test (x : json) (n : nat) (f : Z -> Z -> bool) : verdict :=
  match x with JInt z => Some (f (Z.of_nat n) z) | _ => None end.

(** The strings in an array. *)
Fixpoint strings (l : list json) : option (list pystr) :=
  match l with
  | [] => Some []
  | JStr s :: r => match strings r with Some ss => Some (s :: ss) | None => None end
  | _ => None
  end.

Section Keywords.
  (** [asserts k f d]: whether the data [d] is as the annotation keyword [k]
      ("format", "contentEncoding") with value [f] says.  A validator may
      leave these out. *)
  Variable asserts : pystr -> pystr -> json -> bool.
  (** The document that holds the schema. *)
  Variable root : json.
  (** Verdict on subschemas. *)
  Variable V : json -> json -> verdict.

  Fixpoint each (ss ds : list json) : list verdict :=
    match ss, ds with
    | s :: ss', d :: ds' => V s d :: each ss' ds'
    | _, _ => []
    end.

  (** The keyword [k] with value [x] among the keywords [kws], applied to [d]. *)
  Definition keyword (kws : list (pystr * json)) (d : json) (k : pystr) (x : json) : verdict :=
    if mem_str k (map (fun s => str s) ["$schema"; "definitions"; "title"; "description"; "default"; "examples"]%string)
    then Some true
    else if pystr_eqb k (str "format") || pystr_eqb k (str "contentEncoding")
    then match x with JStr s => Some (asserts k s d) | _ => None end
    else if pystr_eqb k (str "type")
    then match x with JStr s => is_type s d | _ => None end
    else if pystr_eqb k (str "enum")
    then match x with JArr l => Some (existsb (same d) l) | _ => None end
    else if pystr_eqb k (str "const")
    then Some (same d x)
    else if pystr_eqb k (str "oneOf")
    then match x with JArr l => exactly_one (map (fun s => V s d) l) | _ => None end
    else if pystr_eqb k (str "$ref")
    then match x with
         | JStr r => match points_to root r with Some s => V s d | None => None end
         | _ => None
         end
    else if pystr_eqb k (str "items")
    then match d with
         | JArr ds =>
             let skip := match dict_get kws (str "prefixItems") with Some (JArr l) => length l | _ => 0 end in
             all_of (map (V x) (skipn skip ds))
         | _ => Some true
         end
    else if pystr_eqb k (str "prefixItems")
    then match x, d with
         | JArr ss, JArr ds => all_of (each ss ds)
         | JArr _, _ => Some true
         | _, _ => None
         end
    else if pystr_eqb k (str "minItems")
    then match d with JArr ds => size_test x (length ds) (fun n z => (z <=? n)%Z) | _ => Some true end
    else if pystr_eqb k (str "maxItems")
    then match d with JArr ds => size_test x (length ds) (fun n z => (n <=? z)%Z) | _ => Some true end
    else if pystr_eqb k (str "uniqueItems")
    then match x, d with
         | JBool true, JArr ds => Some (distinct ds)
         | JBool _, _ => Some true
         | _, _ => None
         end
    else if pystr_eqb k (str "properties")
    then match x, d with
         | JObj ps, JObj o =>
             all_of (map (fun kv => match dict_get ps (fst kv) with Some s => V s (snd kv) | None => Some true end) o)
         | JObj _, _ => Some true
         | _, _ => None
         end
    else if pystr_eqb k (str "additionalProperties")
    then match d with
         | JObj o =>
             let known := match dict_get kws (str "properties") with Some (JObj ps) => map fst ps | _ => [] end in
             all_of (map (fun kv => if mem_str (fst kv) known then Some true else V x (snd kv)) o)
         | _ => Some true
         end
    else if pystr_eqb k (str "propertyNames")
    then match d with JObj o => all_of (map (fun kv => V x (JStr (fst kv))) o) | _ => Some true end
    else if pystr_eqb k (str "pattern")
    then match x, d with
         | JStr p, JStr s => matches p s
         | JStr _, _ => Some true
         | _, _ => None
         end
    else if pystr_eqb k (str "required")
    then match x with
         | JArr l => match strings l, d with
                     | Some ks, JObj o => Some (forallb (fun k => mem_str k (map fst o)) ks)
                     | Some _, _ => Some true
                     | None, _ => None
                     end
         | _ => None
         end
    else if pystr_eqb k (str "minLength")
    then match d with JStr s => size_test x (length s) (fun n z => (z <=? n)%Z) | _ => Some true end
    else if pystr_eqb k (str "maxLength")
    then match d with JStr s => size_test x (length s) (fun n z => (n <=? z)%Z) | _ => Some true end
    else if pystr_eqb k (str "minimum") then number_test d x (fun a b => negb (num_ltb a b))
    else if pystr_eqb k (str "maximum") then number_test d x (fun a b => negb (num_ltb b a))
    else if pystr_eqb k (str "exclusiveMinimum") then number_test d x (fun a b => num_ltb b a)
    else if pystr_eqb k (str "exclusiveMaximum") then number_test d x (fun a b => num_ltb a b)
    else if pystr_eqb k (str "multipleOf") then number_test d x multiple
    else None.
End Keywords.

(** The verdict of schema [s], part of the document [root], on the data [d],
    if it is reached within [n] nested schemas. *)
Fixpoint check (asserts : pystr -> pystr -> json -> bool) (root : json) (n : nat) (s d : json) : verdict :=
  match n with
  | O => None
  | S n' =>
      match s with
      | JBool b => Some b
      | JObj kws => all_of (map (fun kx => keyword asserts root (check asserts root n') kws d (fst kx) (snd kx)) kws)
      | _ => None
      end
  end.

Definition accepts (asserts : pystr -> pystr -> json -> bool) (root s d : json) : Prop :=
  exists n, check asserts root n s d = Some true.
Definition rejects (asserts : pystr -> pystr -> json -> bool) (root s d : json) : Prop :=
  exists n, check asserts root n s d = Some false.

(** A schema document as a whole. *)
Definition satisfies (asserts : pystr -> pystr -> json -> bool) (doc d : json) : Prop := accepts asserts doc doc d.
Definition violates (asserts : pystr -> pystr -> json -> bool) (doc d : json) : Prop := rejects asserts doc doc d.

(** ** References in a schema *)

(** [refers s r]: the schema [s] has a reference [r], in itself or in one of
    its subschemas. *)
Inductive refers : json -> pystr -> Prop :=
| rf_here : forall o r, In (str "$ref", JStr r) o -> refers (JObj o) r
| rf_one : forall o k x r, In k [str "items"; str "additionalProperties"; str "propertyNames"] -> In (k, x) o ->
    refers x r -> refers (JObj o) r
| rf_list : forall o k l x r, In k [str "oneOf"; str "prefixItems"] -> In (k, JArr l) o -> In x l ->
    refers x r -> refers (JObj o) r
| rf_named : forall o k ps y x r, In k [str "properties"; str "definitions"] -> In (k, JObj ps) o -> In (y, x) ps ->
    refers x r -> refers (JObj o) r.
