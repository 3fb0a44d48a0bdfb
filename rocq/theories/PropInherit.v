(** Theorems for property C67: classes that inherit. *)
From Coq Require Import String List NArith ZArith Bool Lia.
From Verif Require Import Base Json PyTypes Lists TypeParts Inherit SpecInherit InheritProofs Samples.
Import ListNotations.
Open Scope list_scope.
Open Scope nat_scope.

(** ** The annotations of a class: for each name, the first class in the order of
    resolution has its way, and its module is where the annotation is evaluated. *)
Theorem C67_rule : forall E H c hs, hierarchy_ok H -> resolved_hints E H c = Ok hs ->
  NoDup (map fst hs) /\
  forall x t, In (x, t) hs <-> exists b f, inherits H c x b f /\ resolve_hint E (d_module (decl_of H b)) (f_type f) = Ok t.
Proof.
  intros E H c hs K R. split; [|intros x t; exact (hints_rule E H c hs x t K R)].
  rewrite (hints_names E H c hs K R). apply written_nodup.
Qed.
Print Assumptions C67_rule.

(** They are had just if each annotation of each class can be evaluated, be it
    overridden or not. *)
Theorem C67_evaluated : forall E H c, hierarchy_ok H ->
  (exists hs, resolved_hints E H c = Ok hs) <->
  forall b f, In b (h_mro H c) -> In f (own H b) -> exists t, resolve_hint E (d_module (decl_of H b)) (f_type f) = Ok t.
Proof.
  intros E H c K. split.
  - intros (hs & R) b f I J. apply resolved_stack in R. destruct R as [A _]. destruct (A b I) as (ts & R).
    unfold evaluated in R. apply mapM_ok in R. destruct (Forall2_in_l _ _ _ _ _ _ R J) as (kv & _ & Q). apply bind_ok in Q.
    destruct Q as (t & Q & _). exists t. exact Q.
  - intros A. exists (stack (theirs_of E H) (h_mro H c)). apply resolved_stack. split; [|reflexivity].
    intros b I. apply mapM_total. intros f J. destruct (A b f I J) as (t & R). rewrite R. cbn [bind]. eauto.
Qed.
Print Assumptions C67_evaluated.

(** ** Data classes: the fields and the annotations have the same names in the same
    order, so that a reader finds a type for each field. *)
Theorem C67_names : forall E H c hs, hierarchy_ok H -> all_data H c -> resolved_hints E H c = Ok hs ->
  exists fs, fields_of H c = Some fs /\ map f_name fs = map fst hs /\ read_fields E H c = Ok hs.
Proof.
  intros E H c hs K D R. destruct (fields_of H c) as [fs|] eqn:F.
  - exists fs. repeat split; [|exact (read_all E H c hs K D R)].
    rewrite (fields_names H c fs K D F). symmetry. exact (hints_names E H c hs K R).
  - unfold fields_of in F. rewrite (owner_self H c K D) in F. discriminate.
Qed.
Print Assumptions C67_names.

(** With single inheritance, or when no field is declared twice, the fields, with their
    types and defaults, obey the rule of attributes. *)
Theorem C67_fields : forall H c, hierarchy_ok H -> all_data H c -> chain H c \/ declared_once H c ->
  exists fs, fields_of H c = Some fs /\ NoDup (map f_name fs) /\
  forall f, In f fs <-> exists b, inherits H c (f_name f) b f.
Proof.
  intros H c K D A. exists (written_out H c). repeat split.
  - apply written_fields; [exact K | exact D |]. destruct A as [C | O]; [exact (chain_agreed H c K C) | exact (once_agreed H c K O)].
  - apply written_nodup.
  - intros I. apply (written_rule H c f K). exact I.
  - intros I. apply (written_rule H c f K). exact I.
Qed.
Print Assumptions C67_fields.

(** ** A class is treated like one with all fields written out.  [class_properties] and
    [hints] are what the models of the serializer, the schema generator and the
    deserializer know of the fields of a class. *)
Theorem C67_flat : forall E H c m hs, hierarchy_ok H -> all_data H c -> chain H c \/ declared_once H c ->
  in_module H c m -> resolved_hints E H c = Ok hs ->
  exists fs, fields_of H c = Some fs /\ forall name frozen from to,
  let cl := mkClass m name (CData frozen fs) from to in
  properties_of E H c = class_properties E cl /\ hints E cl = Ok hs /\ read_fields E H c = hints E cl.
Proof.
  intros E H c m hs K D A M R. assert (F : fields_of H c = Some (written_out H c)).
  { apply written_fields; [exact K | exact D |]. destruct A as [C | O]; [exact (chain_agreed H c K C) | exact (once_agreed H c K O)]. }
  exists (written_out H c). split; [exact F|]. intros name frozen from to cl.
  assert (Q : hints E cl = Ok hs) by exact (written_hints E H c m hs K M R).
  repeat split; [|exact Q | rewrite Q; exact (read_all E H c hs K D R)].
  unfold properties_of. rewrite F. reflexivity.
Qed.
Print Assumptions C67_flat.

(** The same for classes that are not data classes. *)
Theorem C67_plain : forall E H c m hs, hierarchy_ok H -> no_data H c -> in_module H c m -> resolved_hints E H c = Ok hs ->
  exists raw, NoDup (map fst raw) /\
  (forall x t, In (x, t) raw <-> exists b f, inherits H c x b f /\ f_type f = t) /\
  forall name from to,
  let cl := mkClass m name (CPlain raw) from to in
  properties_of E H c = class_properties E cl /\ hints E cl = Ok hs /\ read_fields E H c = hints E cl.
Proof.
  intros E H c m hs K D M R. exists (map (fun f => (f_name f, f_type f)) (written_out H c)). split; [|split].
  - rewrite map_map. cbn [fst]. apply written_nodup.
  - intros x t. rewrite in_map_iff. split.
    + intros (f & Q & I). apply (written_rule H c f K) in I. destruct I as (b & I). assert (f_name f = x) by congruence. subst x.
      exists b, f. split; [exact I | congruence].
    + intros (b & f & I & <-). assert (f_name f = x) by (clear -I; unfold inherits in I; induction I; assumption). subst x. exists f. split; [reflexivity|].
      apply (written_rule H c f K). exists b. exact I.
  - intros name from to cl. assert (Q : hints E cl = Ok hs) by exact (written_hints E H c m hs K M R).
    assert (F : fields_of H c = None) by exact (no_fields H c D).
    repeat split; [| exact Q |].
    + unfold properties_of. rewrite F, R. symmetry. exact Q.
    + unfold read_fields. rewrite R, F. cbn [bind]. symmetry. exact Q.
Qed.
Print Assumptions C67_plain.

(** * Hierarchies. *)
Definition x_ (t : typ) : field := mkField (str "x") t None.
Definition y_ (t : typ) : field := mkField (str "y") t None.
Definition z_ (t : typ) (v : value) : field := mkField (str "z") t (Some (Ok v)).
Definition tint := TScalar KInt.
Definition tstr := TScalar KStr.

Definition orders (l : list (list nat)) (c : nat) : list nat := nth c l [c].

Definition order_ok (l : list (list nat)) (c : nat) (o : list nat) : Prop :=
  exists cs, o = c :: cs /\ Forall (fun b => b < c) cs /\ NoDup (c :: cs) /\
  Forall (fun b => sub (orders l b) (c :: cs)) (c :: cs).

Lemma orders_ok : forall ds l, (forall c o, nth_error l c = Some o -> order_ok l c o) ->
  Forall (fun d => NoDup (map f_name (d_own d))) ds -> hierarchy_ok (Hier ds (orders l)).
Proof.
  intros ds l A N.
  assert (B : forall c, order_ok l c (orders l c)).
  { intros c. destruct (nth_error l c) as [o|] eqn:Q.
    - unfold orders. rewrite (nth_error_nth l c [c] Q). exact (A c o Q).
    - assert (L : orders l c = [c]) by (apply nth_overflow, nth_error_None, Q).
      exists []. rewrite L. split; [reflexivity|]. split; [constructor|]. split; [repeat constructor; intros []|].
      constructor; [rewrite L; apply sub_keep, sub_nil | constructor]. }
  constructor; cbn [h_mro]; intros c.
  - destruct (B c) as (cs & Q & _). exists cs. exact Q.
  - intros b I. destruct (B c) as (cs & Q & F & _). rewrite Q in I. exact (proj1 (Forall_forall _ _) F b I).
  - intros b I. destruct (B c) as (cs & Q & _ & _ & S). rewrite Q in *. exact (proj1 (Forall_forall _ _) S b I).
  - destruct (B c) as (cs & Q & _ & D & _). rewrite Q. exact D.
  - unfold own, decl_of. cbn [h_decls]. destruct (nth_error ds c) as [d|] eqn:Q.
    + rewrite (nth_error_nth ds c _ Q). apply nth_error_In in Q. exact (proj1 (Forall_forall _ _) N d Q).
    + rewrite nth_overflow by (apply nth_error_None, Q). constructor.
Qed.

Ltac subs := cbn; repeat (first [apply sub_nil | apply sub_keep; solve [subs] | apply sub_skip; solve [subs]]).
Ltac orderly := apply orders_ok;
  [ intros c o Q; destruct c as [|[|[|[|[|c]]]]]; cbn [nth_error] in Q; try (destruct c; discriminate Q); try discriminate Q;
    injection Q as <-; eexists; (split; [reflexivity|]); (split; [repeat constructor|]); (split; [nodup|]);
    repeat (constructor; [solve [subs]|]); constructor
  | repeat (constructor; [cbn; nodup|]); constructor ].

(** [A] with [x], [B(A)] with [y], [C(B)] with a new [x] and [z]. *)
Definition Line : hierarchy := Hier
  [Decl true 0 [x_ tint]; Decl true 0 [y_ (TRef (str "Node"))]; Decl true 0 [x_ tstr; z_ tint (VInt 7)]]
  (orders [[0]; [1; 0]; [2; 1; 0]]).
Lemma line_ok : hierarchy_ok Line.
Proof. orderly. Qed.

Lemma line_chain : chain Line 2.
Proof. apply (ch_base Line 2 1); [reflexivity|]. apply (ch_base Line 1 0); [reflexivity|]. apply ch_root. reflexivity. Qed.

Ltac each I := cbn in I; repeat (destruct I as [<- | I]; [reflexivity|]); destruct I.

Example C67_witness : hierarchy_ok Line /\ all_data Line 2 /\ chain Line 2 /\ in_module Line 2 0 /\
  resolved_hints Zoo Line 2 = Ok [(str "x", tstr); (str "y", TClass 2); (str "z", tint)] /\
  fields_of Line 2 = Some [x_ tstr; y_ (TRef (str "Node")); z_ tint (VInt 7)] /\
  inherits Line 2 (str "x") 2 (x_ tstr) /\ inherits Line 2 (str "y") 1 (y_ (TRef (str "Node"))) /\
  ~ inherits Line 2 (str "x") 0 (x_ tint).
Proof.
  split; [exact line_ok|]. split; [intros b I; each I|]. split; [exact line_chain|]. split; [intros b I; each I|].
  split; [reflexivity|]. split; [reflexivity|].
  assert (X : inherits Line 2 (str "x") 2 (x_ tstr)) by (apply fs_here; [left; reflexivity | reflexivity]).
  split; [exact X|]. split.
  - apply fs_later; [cbn; intros [Q | [Q | []]]; discriminate Q|]. apply fs_here; [left; reflexivity | reflexivity].
  - intros F. destruct (first_unique Line _ _ _ _ _ _ (ho_names Line line_ok) X F) as [Q _]. discriminate Q.
Qed.

(** [D(B, C)] with [B(A)] and [C(A)], each with a field of its own. *)
Definition Square : hierarchy := Hier
  [Decl true 0 [x_ tint]; Decl true 0 [y_ tint]; Decl true 0 [z_ tstr (VStr (str "z"))]; Decl true 0 []]
  (orders [[0]; [1; 0]; [2; 0]; [3; 1; 2; 0]]).

Lemma square_ok : hierarchy_ok Square.
Proof. orderly. Qed.

Example C67_witness_once : hierarchy_ok Square /\ all_data Square 3 /\ declared_once Square 3 /\ ~ chain Square 3 /\ in_module Square 3 0 /\
  resolved_hints Zoo Square 3 = Ok [(str "x", tint); (str "z", tstr); (str "y", tint)] /\
  fields_of Square 3 = Some [x_ tint; z_ tstr (VStr (str "z")); y_ tint].
Proof.
  split; [exact square_ok|]. split; [intros b I; each I|]. split; [|split; [|split; [intros b I; each I | split; reflexivity]]].
  - intros a b x I J. cbn in I, J.
    repeat (destruct I as [<- | I]; [repeat (destruct J as [<- | J]; [cbn; intros P Q; first [reflexivity | exfalso; intuition (subst; discriminate)]|]); destruct J |]). destruct I.
  - intros C. inversion C as [c Q | c p Q C']; subst; cbn in Q; [discriminate|]. destruct p as [|[|[|[|[|p]]]]]; discriminate Q.
Qed.

(** Without data classes. *)
Definition Bare : hierarchy := Hier
  [Decl false 0 [x_ tint]; Decl false 0 [y_ tint]; Decl false 0 [x_ tstr]; Decl false 0 []]
  (orders [[0]; [1; 0]; [2; 0]; [3; 1; 2; 0]]).

Example C67_witness_plain : hierarchy_ok Bare /\ no_data Bare 3 /\ in_module Bare 3 0 /\
  resolved_hints Zoo Bare 3 = Ok [(str "x", tstr); (str "y", tint)].
Proof. split; [orderly|]. split; [intros b I; each I|]. split; [intros b I; each I | reflexivity]. Qed.

(** ** Where it fails.  [A] with [x: int], [B(A)], [C(A)] with [x: str] and [D(B, C)]:
    the field [x] of [D] is written as [int] and read as [str]. *)
Definition Diamond : hierarchy := Hier
  [Decl true 0 [x_ tint]; Decl true 0 [y_ tint]; Decl true 0 [x_ tstr]; Decl true 0 []]
  (orders [[0]; [1; 0]; [2; 0]; [3; 1; 2; 0]]).

Theorem C67_diamond_refuted : exists E H c ps rs x, hierarchy_ok H /\ all_data H c /\ in_module H c 0 /\
  properties_of E H c = Ok ps /\ read_fields E H c = Ok rs /\ In (x, tint) ps /\ In (x, tstr) rs.
Proof.
  exists Zoo, Diamond, 3, [(str "x", tint); (str "y", tint)], [(str "x", tstr); (str "y", tint)], (str "x").
  split; [orderly|]. split; [intros b I; each I|]. split; [intros b I; each I|].
  split; [reflexivity|]. split; [reflexivity|]. split; left; reflexivity.
Qed.
Print Assumptions C67_diamond_refuted.

(** An inherited text is read in the module of the class that it is written in, and
    looked up in the module of the class that inherits it. *)
Definition Moved : hierarchy := Hier
  [Decl true 0 [x_ (TRef (str "Node"))]; Decl true 1 [y_ tint]] (orders [[0]; [1; 0]]).

Theorem C67_module_refuted : exists E H c rs f, hierarchy_ok H /\ all_data H c /\ chain H c /\
  read_fields E H c = Ok rs /\ fields_of H c = Some f /\
  mapM (fun f => evaluate_type E (d_module (decl_of H c)) (f_type f)) f = Err EName.
Proof.
  exists Zoo, Moved, 1, [(str "x", TClass 2); (str "y", tint)], [x_ (TRef (str "Node")); y_ tint].
  split; [orderly|]. split; [intros b I; each I|]. split; [apply (ch_base Moved 1 0); [reflexivity | apply ch_root; reflexivity]|].
  split; [reflexivity|]. split; reflexivity.
Qed.
Print Assumptions C67_module_refuted.

(** A class that is not decorated itself: what it adds is not a field, and what it
    overrides is read but not written in its way. *)
Definition Forgotten : hierarchy := Hier
  [Decl true 0 [x_ tint]; Decl false 0 [x_ tstr; y_ tint]] (orders [[0]; [1; 0]]).

Theorem C67_undecorated_refuted : exists E H c ps rs hs, hierarchy_ok H /\ chain H c /\ in_module H c 0 /\
  properties_of E H c = Ok ps /\ read_fields E H c = Ok rs /\ resolved_hints E H c = Ok hs /\
  In (str "y", tint) hs /\ ~ In (str "y") (map fst ps) /\ ~ In (str "y") (map fst rs) /\
  In (str "x", tint) ps /\ In (str "x", tstr) rs.
Proof.
  exists Zoo, Forgotten, 1, [(str "x", tint)], [(str "x", tstr)], [(str "x", tstr); (str "y", tint)].
  split; [orderly|]. split; [apply (ch_base Forgotten 1 0); [reflexivity | apply ch_root; reflexivity]|]. split; [intros b I; each I|].
  split; [reflexivity|]. split; [reflexivity|]. split; [reflexivity|]. split; [right; left; reflexivity|].
  split; [intros [Q | []]; discriminate Q|]. split; [intros [Q | []]; discriminate Q|]. split; left; reflexivity.
Qed.
Print Assumptions C67_undecorated_refuted.

(** An annotation that is overridden is evaluated all the same: here, the class with all
    fields written out can be read and the class that inherits cannot. *)
Definition Overridden : hierarchy := Hier
  [Decl true 0 [x_ (TRef (str "Missing"))]; Decl true 0 [x_ tint]] (orders [[0]; [1; 0]]).

Theorem C67_overridden_refuted : exists E H c fs name, hierarchy_ok H /\ all_data H c /\ chain H c /\ in_module H c 0 /\
  fields_of H c = Some fs /\ hints E (mkClass 0 name (CData false fs) None None) = Ok [(str "x", tint)] /\
  read_fields E H c = Err EName.
Proof.
  exists Zoo, Overridden, 1, [x_ tint], (str "B").
  split; [orderly|]. split; [intros b I; each I|]. split; [apply (ch_base Overridden 1 0); [reflexivity | apply ch_root; reflexivity]|].
  split; [intros b I; each I|]. split; [reflexivity|]. split; reflexivity.
Qed.
Print Assumptions C67_overridden_refuted.
