(** Model of the UUID, IPv4 and IPv6 serializers and deserializers.  The
    repository delegates to [uuid.UUID], [ipaddress.IPv4Address] and
    [ipaddress.IPv6Address]; these are modelled after CPython 3.11. *)
From Coq Require Import String List NArith ZArith Bool.
From Verif Require Import Base Digits PyStr.
Import ListNotations.
Open Scope list_scope.
Open Scope N_scope.

(** ** UUID: a 128-bit number *)

(** serializer.py 152-154, [str(obj)]: groups of 8, 4, 4, 4, 12 digits. *)
Definition uuid_generate (u : N) : pystr :=
  let hex := hex_pad 32 u in
  firstn 8 hex ++ str "-" ++ firstn 4 (skipn 8 hex) ++ str "-" ++ firstn 4 (skipn 12 hex)
    ++ str "-" ++ firstn 4 (skipn 16 hex) ++ str "-" ++ skipn 20 hex.

(** deserializer.py 241-247: [uuid.UUID(data)], Lib/uuid.py. *)
Definition uuid_parse (s : pystr) : res N :=
  let h := remove_pat (str "uuid:") (remove_pat (str "urn:") s 0) 0 in
  let h := filter (fun c => negb (c =? 45)) (strip (fun c => (c =? 123) || (c =? 125)) h) in
  if N.of_nat (length h) =? 32 then
    do v <- int_base16 h;
    if ((0 <=? v) && (v <? 2 ^ 128))%Z then Ok (Z.to_N v) else Err EValue
  else Err EValue.

(** ** IPv4: a 32-bit number *)

(** serializer.py 157-159, [str(obj)] *)
Definition ipv4_generate (a : N) : pystr :=
  join (str ".") (map dec_str [a / 16777216; a / 65536 mod 256; a / 256 mod 256; a mod 256]).

(** Lib/ipaddress.py, [_parse_octet] *)
Definition parse_octet (s : pystr) : res N :=
  match s with
  | [] => Err EValue
  | c :: _ =>
      if negb (forallb is_digit s) then Err EValue
      else if (3 <? N.of_nat (length s)) then Err EValue
      else if negb (pystr_eqb s (str "0")) && (c =? 48) then Err EValue
      else if 255 <? dec_val s then Err EValue
      else Ok (dec_val s)
  end.

(** [IPv4Address._ip_int_from_string] *)
Definition ipv4_from_string (s : pystr) : res N :=
  match split_on 46 s with
  | [a; b; c; d] =>
      do a <- parse_octet a; do b <- parse_octet b; do c <- parse_octet c; do d <- parse_octet d;
      Ok (((a * 256 + b) * 256 + c) * 256 + d)
  | _ => Err EValue
  end.

(** deserializer.py 250-256: [ipaddress.IPv4Address(data)] *)
Definition ipv4_parse (s : pystr) : res N :=
  if mem_char 47 s then Err EValue else ipv4_from_string s.

(** ** IPv6: a 128-bit number and an optional scope *)
Record ipv6 := mkIP6 { ip6_addr : N; ip6_scope : option pystr }.

(** The eight 16-bit groups, most significant first. *)
Definition hextets (a : N) : list N :=
  [a / 2 ^ 112; a / 2 ^ 96 mod 65536; a / 2 ^ 80 mod 65536; a / 2 ^ 64 mod 65536;
   a / 2 ^ 48 mod 65536; a / 2 ^ 32 mod 65536; a / 2 ^ 16 mod 65536; a mod 65536].

(** [_compress_hextets], the search for the first longest run of zeros.
    [cur] is the current run, [best] the best run so far (start, length). *)
Fixpoint best_run (hs : list pystr) (index : nat) (cur_start cur_len best_start best_len : nat)
  : nat * nat :=
  match hs with
  | [] => (best_start, best_len)
  | h :: r =>
      if pystr_eqb h (str "0") then
        let cur_start := if (cur_len =? 0)%nat then index else cur_start in
        let cur_len := S cur_len in
        if (best_len <? cur_len)%nat
        then best_run r (S index) cur_start cur_len cur_start cur_len
        else best_run r (S index) cur_start cur_len best_start best_len
      else best_run r (S index) 0 0 best_start best_len
  end.

(** [_compress_hextets] *)
Definition compress_hextets (hs : list pystr) : list pystr :=
  let '(start, len) := best_run hs 0 0 0 0 0 in
  if (1 <? len)%nat then
    let stop := (start + len)%nat in
    (if (start =? 0)%nat then [[]] else []) ++ firstn start hs ++ [[]] ++ skipn stop hs
      ++ (if (stop =? length hs)%nat then [[]] else [])
  else hs.

(** serializer.py 162-164, [str(obj)]: [_string_from_ip_int] and the scope *)
Definition ipv6_generate (a : ipv6) : pystr :=
  let s := join (str ":") (compress_hextets (map hex_str (hextets (ip6_addr a)))) in
  match ip6_scope a with
  | Some (c :: sc) => s ++ str "%" ++ c :: sc
  | _ => s
  end.

(** [_parse_hextet] *)
Definition parse_hextet (s : pystr) : res N :=
  if negb (forallb (fun c => match char_digit c with Some _ => true | None => false end) s)
  then Err EValue
  else if 4 <? N.of_nat (length s) then Err EValue
  else match s with
       | [] => Err EValue
       | _ => Ok (undigits 16 (map (fun c => match char_digit c with Some d => d | None => 0 end) s))
       end.

(** The loop over the inner parts looking for the empty one: [None] when there
    is more than one. *)
Fixpoint find_skip (parts : list pystr) (i : nat) (found : option nat) : option (option nat) :=
  match parts with
  | [] => Some found
  | p :: r =>
      match p with
      | [] => match found with Some _ => None | None => find_skip r (S i) (Some i) end
      | _ => find_skip r (S i) found
      end
  end.

(** [ip_int <<= 16; ip_int |= hextet] over a list of parts *)
Fixpoint accumulate (acc : N) (parts : list pystr) : res N :=
  match parts with
  | [] => Ok acc
  | p :: r => do h <- parse_hextet p; accumulate (acc * 65536 + h) r
  end.

Definition is_empty (s : pystr) : bool := match s with [] => true | _ => false end.

(** [IPv6Address._ip_int_from_string] *)
Definition ipv6_from_string (s : pystr) : res N :=
  match s with
  | [] => Err EValue
  | _ =>
    let parts := split_on 58 s in
    if (length parts <? 3)%nat then Err EValue else
    do parts <-
      (if mem_char 46 (last parts []) then
         do v4 <- ipv4_parse (last parts []);
         Ok (removelast parts ++ [hex_str (v4 / 65536 mod 65536); hex_str (v4 mod 65536)])
       else Ok parts);
    if (9 <? length parts)%nat then Err EValue else
    match find_skip (removelast (tl parts)) 1 None with
    | None => Err EValue
    | Some (Some i) =>
        let first_empty := is_empty (hd [] parts) in
        let last_empty := is_empty (last parts []) in
        let hi := if first_empty then (i - 1)%nat else i in
        let lo := if last_empty then (length parts - i - 1 - 1)%nat else (length parts - i - 1)%nat in
        if first_empty && negb (hi =? 0)%nat then Err EValue
        else if last_empty && negb (lo =? 0)%nat then Err EValue
        else if (8 <? hi + lo + 1)%nat then Err EValue
        else
          do a <- accumulate 0 (firstn hi parts);
          accumulate (a * 65536 ^ N.of_nat (8 - (hi + lo))) (skipn (length parts - lo) parts)
    | Some None =>
        if negb (length parts =? 8)%nat then Err EValue
        else if is_empty (hd [] parts) then Err EValue
        else if is_empty (last parts []) then Err EValue
        else accumulate 0 parts
    end
  end.

(** deserializer.py 259-265: [ipaddress.IPv6Address(data)] with
    [_split_scope_id] *)
Definition ipv6_parse (s : pystr) : res ipv6 :=
  if mem_char 47 s then Err EValue else
  let '(addr, scope) := partition 37 s in
  match scope with
  | Some [] => Err EValue
  | Some sc =>
      if mem_char 37 sc then Err EValue
      else do a <- ipv6_from_string addr; Ok (mkIP6 a scope)
  | None => do a <- ipv6_from_string addr; Ok (mkIP6 a None)
  end.
