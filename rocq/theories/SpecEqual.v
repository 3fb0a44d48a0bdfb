(** Equality of the objects that a set may have. *)
From Coq Require Import String List NArith ZArith QArith Bool.
From Verif Require Import Base Json IsoTime SpecIsoTime PyTypes SpecNumbers.
Import ListNotations.
Open Scope list_scope.

(** [day d k]: the date [d] is the [k]-th day of the calendar. *)
Inductive day : date -> Z -> Prop :=
| day_first : day (mkDate 1 1 1) 1
| day_next : forall y m d n k, day (mkDate y m d) k -> month_length y m n -> (d < n)%N -> day (mkDate y m (d + 1)) (k + 1)
| day_month : forall y m n k, day (mkDate y m n) k -> month_length y m n -> (m < 12)%N -> day (mkDate y (m + 1) 1) (k + 1)
| day_year : forall y k, day (mkDate y 12 31) k -> day (mkDate (y + 1) 1 1) (k + 1).

(** Microseconds since midnight; since the beginning of the calendar, by the clock on the
    wall. *)
Definition clock (t : time) : Z := (((Z.of_N (t_hour t) * 60 + Z.of_N (t_min t)) * 60 + Z.of_N (t_sec t)) * 1000000 + Z.of_N (t_us t))%Z.
Definition wall (d : datetime) (z : Z) : Prop := exists k, day (dt_date d) k /\ z = (k * (24 * 60 * 60 * 1000000) + clock (dt_time d))%Z.

(** Times compare in UTC if both have an offset, and as they are if neither has. *)
Definition same_instant (x y : option Z) (a b : Z) : Prop :=
  match x, y with
  | Some x, Some y => (a - x = b - y)%Z
  | None, None => a = b
  | _, _ => False
  end.

Inductive amount : value -> Q -> Prop :=
| am_bool : forall b, amount (VBool b) (inject_Z (if b then 1 else 0))
| am_int : forall z, amount (VInt z) (inject_Z z)
| am_float : forall f q, flt_q f = Some q -> amount (VFloat f) q.

(** Objects that are what they are and equal nothing else. *)
Inductive atom : value -> Prop :=
| at_none : atom VNone
| at_str : forall s, atom (VStr s)
| at_bytes : forall bs, atom (VBytes bs)
| at_date : forall d, atom (VDate d)
| at_timedelta : forall t, atom (VTimeDelta t)
| at_uuid : forall u, atom (VUUID u)
| at_ipv4 : forall a, atom (VIPv4 a)
| at_ipv6 : forall a, atom (VIPv6 a)
| at_enum : forall c x, atom (VEnum c x)
| at_inf : forall neg, atom (VFloat (FInf neg)).

(** The items of tuples, named or not. *)
Inductive items (E : env) : value -> list value -> Prop :=
| it_tuple : forall vs, items E (VTuple vs) vs
| it_named : forall c cl attrs, get_class E c = Some cl -> ((exists fs, c_kind cl = CTuple fs) \/ exists xs, c_kind cl = CRawTuple xs) ->
    items E (VObj c attrs) (map snd attrs).

Inductive equal (E : env) : value -> value -> Prop :=
| eq_atom : forall v, atom v -> equal E v v
| eq_number : forall a b q r, amount a q -> amount b r -> (q == r)%Q -> equal E a b
| eq_datetime : forall a b x y, wall a x -> wall b y -> same_instant (t_off (dt_time a)) (t_off (dt_time b)) x y ->
    equal E (VDateTime a) (VDateTime b)
| eq_time : forall a b, same_instant (t_off a) (t_off b) (clock a) (clock b) -> equal E (VTime a) (VTime b)
| eq_items : forall a b vs ws, items E a vs -> items E b ws -> Forall2 (equal E) vs ws -> equal E a b
| eq_frozen : forall c cl fs x y, get_class E c = Some cl -> c_kind cl = CData true fs ->
    Forall2 (equal E) (map snd x) (map snd y) -> equal E (VObj c x) (VObj c y).

(** [inside x v]: [v] is, or has somewhere in it, the object [x]. *)
Inductive inside (x : value) : value -> Prop :=
| in_self : inside x x
| in_tuple : forall v vs, In v vs -> inside x v -> inside x (VTuple vs)
| in_object : forall c n v attrs, In (n, v) attrs -> inside x v -> inside x (VObj c attrs).

Definition calendar_dates (v : value) : Prop := forall d, inside (VDateTime d) v -> date_wf (dt_date d).
