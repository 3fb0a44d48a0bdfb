(** JSON documents as Python data, independent of the code that reads them. *)
From Coq Require Import String List NArith ZArith Bool.
From Verif Require Import Base Json PyTypes SpecSchema.
Import ListNotations.
Open Scope list_scope.

(** The objects that [json.loads] makes: [None], [bool], [int], [float], [str],
    [list] and [dict] with strings as keys. *)
Inductive data_of : json -> value -> Prop :=
| do_null : data_of JNull VNone
| do_bool : forall b, data_of (JBool b) (VBool b)
| do_int : forall z, data_of (JInt z) (VInt z)
| do_float : forall f, data_of (JFloat f) (VFloat f)
| do_str : forall s, data_of (JStr s) (VStr s)
| do_arr : forall l vs, Forall2 data_of l vs -> data_of (JArr l) (VList vs)
| do_obj : forall o kvs, Forall2 (fun p kv => fst kv = VStr (fst p) /\ data_of (snd p) (snd kv)) o kvs ->
    data_of (JObj o) (VDict kvs).

(** [anywhere P j]: the document [j] or a document inside it is as [P] says. *)
Inductive anywhere (P : json -> Prop) : json -> Prop :=
| any_here : forall j, P j -> anywhere P j
| any_item : forall l x, In x l -> anywhere P x -> anywhere P (JArr l)
| any_member : forall o s x, In (s, x) o -> anywhere P x -> anywhere P (JObj o).

Definition is_null (j : json) : Prop := j = JNull.

(** Integers, and floats that are whole numbers. *)
Definition is_integer (j : json) : Prop :=
  match j with JInt _ => True | JFloat f => whole f = true | _ => False end.
