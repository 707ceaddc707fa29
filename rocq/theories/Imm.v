(** IMM dates and codes (src/time/imm.rs). *)
From Coq Require Import ZArith Bool List.
Import ListNotations.
From Verif Require Import Outcome Ints Loop Date Calendar.
Open Scope Z_scope.

(** A Rust [String] / [&str] as its sequence of Unicode scalar values. *)
Definition chars := list Z.
(** UTF-8 length of one scalar value; [String::len] counts bytes. *)
Definition utf8_len (c : Z) : Z :=
  if c <? 128 then 1 else if c <? 2048 then 2 else if c <? 65536 then 3 else 4.
Definition byte_len (s : chars) : Z := fold_right Z.add 0 (map utf8_len s).
(** [str::contains(char)] *)
Definition has_char (s : chars) (c : Z) : bool := existsb (Z.eqb c) s.

(** src/time/imm.rs:8-23  enum IMMMonth: the letters in declaration order,
    which is also their [Display]/[EnumString] spelling; the discriminant is
    the position plus one.  F G H J K M N Q U V X Z. *)
Definition imm_letters : chars := [70; 71; 72; 74; 75; 77; 78; 81; 85; 86; 88; 90].
(** The literals "0123456789", "hmzuHMZU" and "fghjkmnquvxzFGHJKMNQUVXZ" of
    src/time/imm.rs:61-70. *)
Definition digit_chars : chars := [48; 49; 50; 51; 52; 53; 54; 55; 56; 57].
Definition main_chars : chars := [104; 109; 122; 117; 72; 77; 90; 85].
Definition serial_chars : chars :=
  [102; 103; 104; 106; 107; 109; 110; 113; 117; 118; 120; 122;
   70; 71; 72; 74; 75; 77; 78; 81; 85; 86; 88; 90].

(** src/time/imm.rs:34-49  IMM::is_imm_date *)
Definition is_imm_date (d : date) (main_cycle : bool) : bool :=
  if negb (weekday_eqb (weekday_of d) Wed) then false
  else if negb ((15 <=? day d) && (day d <=? 21)) then false
  else if negb main_cycle then true
  else (month d =? 3) || (month d =? 6) || (month d =? 9) || (month d =? 12).

(** src/time/imm.rs:52-83  IMM::is_imm_code *)
Definition is_imm_code (s : chars) (main_cycle : bool) : outcome bool :=
  if negb (byte_len s =? 2) then Ok false
  else
    do y <- ounwrap (nth_error s 1);
    if negb (has_char digit_chars y) then Ok false
    else
      let str := if main_cycle then main_chars else serial_chars in
      do m <- ounwrap (nth_error s 0);
      if negb (has_char str m) then Ok false else Ok true.

(** [i32::to_string] for a one-digit number, possibly negative. *)
Definition small_to_string (y : Z) : chars := if y <? 0 then [45; 48 - y] else [48 + y].

(** src/time/imm.rs:86-98  IMM::code; Rust's [%] keeps the dividend's sign. *)
Definition imm_code (d : date) : option chars :=
  if negb (is_imm_date d false) then None
  else Some (nth (Z.to_nat (month d - 1)) imm_letters 0 :: small_to_string (Z.rem (year d) 10)).

(** src/time/imm.rs:149-168  IMM::nth_weekday with nth = 3 and Wednesday
    (num_days_from_monday = 2), the only way it is called; all values are small
    and the u32 subtraction does not underflow: 3 + 7 * skip >= 17 > first. *)
Definition third_wednesday (m y : Z) : outcome date :=
  do f <- ounwrap (from_ymd_opt y m 1);
  let first := weekday_num (weekday_of f) in
  let skip := 3 - (if first <=? 2 then 1 else 0) in
  ounwrap (from_ymd_opt y m (1 + 2 + skip * 7 - first)).

(** src/time/imm.rs:127-147  IMM::next_date, one call: [inl d'] is the
    recursive call on [d'].  [month -= 12] is u32: with overflow checks it
    panics below 12; without, it wraps. *)
Definition next_step (oc : bool) (main_cycle : bool) (d : date) : date + outcome date :=
  let offset := if main_cycle then 3 else 1 in
  let skip := offset - month d mod offset in
  let moved :=
    if negb (skip =? offset) || (21 <? day d)
    then if 12 <? skip + month d
         then if month d - 12 <? 0
              then if oc then Panic PArith else Ok ((month d - 12) mod 2 ^ 32, year d + 1)
              else Ok (month d - 12, year d + 1)
         else Ok (month d, year d)
    else Ok (month d, year d) in
  match moved with
  | Ok (m, y) =>
    match third_wednesday m y with
    | Ok r =>
      if r <=? d then
        match from_ymd_opt y m 22 with Some d' => inl d' | None => inr (Panic PUnwrap) end
      else inr (Ok r)
    | Err e => inr (Err e)
    | Panic p => inr (Panic p)
    end
  | Err e => inr (Err e)
  | Panic p => inr (Panic p)
  end.

(** The recursion, with room for [depth] nested calls; a deeper recursion
    overflows the stack and aborts. *)
Definition next_date (oc : bool) (depth : positive) (d : date) (main_cycle : bool) : outcome date :=
  match loop depth (next_step oc main_cycle) d with inr o => o | inl _ => Panic PStack end.

(** Position of a letter in the enum: [IMMMonth::from_str(..) as u32]. *)
Fixpoint index_of (c : Z) (l : chars) (i : Z) : option Z :=
  match l with [] => None | x :: l => if x =? c then Some i else index_of c l (i + 1) end.

(** src/time/imm.rs:101-124  IMM::date.  [now] stands for [Utc::now()]. *)
Definition imm_date (oc : bool) (depth : positive) (now : date) (s : chars) (ref_date : option date) : outcome (option date) :=
  do ok <- is_imm_code s false;
  if negb ok then Ok None
  else
    let ref := match ref_date with Some r => r | None => now end in
    do m <- ounwrap (nth_error s 0);
    do y <- ounwrap (nth_error s 1);
    let yr := y - 48 in
    do mon <- ounwrap (index_of m imm_letters 1);
    let yr := if (yr =? 0) && (year ref <=? 1909) then yr + 10 else yr in
    let yr := yr + (year ref - Z.rem (year ref) 10) in
    do f <- ounwrap (from_ymd_opt yr mon 1);
    do r <- next_date oc depth f false;
    if r <? ref then
      do f' <- ounwrap (from_ymd_opt (yr + 10) mon 1);
      do r' <- next_date oc depth f' false; Ok (Some r')
    else Ok (Some r).
