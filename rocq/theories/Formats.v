(** string.go:73-114, 135-181: string formats. *)
From Verif Require Import Base.
Open Scope Z_scope.

Definition byte (c : ascii) : Z := Z.of_N (N_of_ascii c).

(** ** "for _, r := range str": UTF-8 decoding (Go specification; an invalid byte
    yields U+FFFD and advances by one) *)
Definition cont (lo hi : Z) (c : ascii) : bool := (lo <=? byte c) && (byte c <=? hi).

(** unicode/utf8 first-byte table: number of continuation bytes, range of the second *)
Definition lead (b : Z) : option (nat * Z * Z) :=
  if (194 <=? b) && (b <=? 223) then Some (1%nat, 128, 191)
  else if b =? 224 then Some (2%nat, 160, 191)
  else if (225 <=? b) && (b <=? 236) then Some (2%nat, 128, 191)
  else if b =? 237 then Some (2%nat, 128, 159)
  else if (238 <=? b) && (b <=? 239) then Some (2%nat, 128, 191)
  else if b =? 240 then Some (3%nat, 144, 191)
  else if (241 <=? b) && (b <=? 243) then Some (3%nat, 128, 191)
  else if b =? 244 then Some (3%nat, 128, 143)
  else None.

Definition rune_error : Z := 65533.

(** decode one rune at the head of a non-empty string: rune and number of further bytes
    it occupies *)
Definition decode1 (c : ascii) (rest : string) : Z * nat :=
  let b := byte c in
  if b <? 128 then (b, 0%nat)
  else match lead b with
  | None => (rune_error, 0%nat)
  | Some (n, lo, hi) =>
      match n, rest with
      | 1%nat, String c1 _ =>
          if cont lo hi c1 then (Z.land b 31 * 64 + Z.land (byte c1) 63, 1%nat) else (rune_error, 0%nat)
      | 2%nat, String c1 (String c2 _) =>
          if cont lo hi c1 && cont 128 191 c2
          then (Z.land b 15 * 4096 + Z.land (byte c1) 63 * 64 + Z.land (byte c2) 63, 2%nat)
          else (rune_error, 0%nat)
      | 3%nat, String c1 (String c2 (String c3 _)) =>
          if cont lo hi c1 && cont 128 191 c2 && cont 128 191 c3
          then (Z.land b 7 * 262144 + Z.land (byte c1) 63 * 4096 + Z.land (byte c2) 63 * 64 + Z.land (byte c3) 63, 3%nat)
          else (rune_error, 0%nat)
      | _, _ => (rune_error, 0%nat)
      end
  end.

(** the runes of a string; [skip] counts bytes already consumed by the last rune *)
Fixpoint runes_from (skip : nat) (s : string) : list Z :=
  match s with
  | EmptyString => []
  | String c r =>
      match skip with
      | S k => runes_from k r
      | O => let '(rn, k) := decode1 c r in rn :: runes_from k r
      end
  end.
Definition runes (s : string) : list Z := runes_from 0 s.

(** string.go:86-94: every rune is '.' or a digit *)
Definition ipv4_chars (s : string) : bool :=
  forallb (fun r => (r =? 46) || ((48 <=? r) && (r <=? 57))) (runes s).
(** string.go:98-106: every rune is ':' or a digit *)
Definition ipv6_chars (s : string) : bool :=
  forallb (fun r => (r =? 58) || ((48 <=? r) && (r <=? 57))) (runes s).

(** ** isDomainName, string.go:135-181 *)
Definition between (lo hi : Z) (c : ascii) : bool := (lo <=? byte c) && (byte c <=? hi).
Definition letter_ (c : ascii) : bool :=
  between 97 122 c || between 65 90 c || (byte c =? 95).
Definition digit (c : ascii) : bool := between 48 57 c.
Definition dash (c : ascii) : bool := byte c =? 45.
Definition dot (c : ascii) : bool := byte c =? 46.

(** the loop body, string.go:147-175: last byte, ok flag, partlen *)
Fixpoint dn_loop (last : ascii) (ok : bool) (partlen : Z) (s : string) : bool :=
  match s with
  | EmptyString => (* string.go:176-180 *)
      if dash last || (63 <? partlen) then false else ok
  | String c r =>
      if letter_ c then dn_loop c true (partlen + 1) r
      else if digit c then dn_loop c ok (partlen + 1) r
      else if dash c then
        if dot last then false else dn_loop c ok (partlen + 1) r
      else if dot c then
        if dot last || dash last then false
        else if (63 <? partlen) || (partlen =? 0) then false
        else dn_loop c ok 0 r
      else false
  end.

Definition slen (s : string) : Z := Z.of_nat (String.length s).

Definition is_domain_name (s : string) : bool :=
  if slen s =? 0 then false
  else if 255 <? slen s then false
  else dn_loop "."%char false 0 s.
