(** The public holidays of South Korea and Hong Kong, written from their laws
    over the festivals of FestivalSpec.v.  Nothing here models code. *)
From Coq Require Import ZArith Bool List.
Import ListNotations.
From Verif Require Import Date EasterSpec FestivalSpec.
Open Scope Z_scope.

Definition sunday (d : date) : bool := match weekday_of d with Sun => true | _ => false end.
Definition weekend_day (d : date) : bool := match weekday_of d with Sat | Sun => true | _ => false end.
Definition among (l : list date) (d : date) : bool := existsb (Z.eqb d) l.
Definition shared (l : list date) (d : date) : bool := Nat.ltb 1 (length (filter (Z.eqb d) l)).

(** The first day after [d] that [busy] does not take (within ten days). *)
Fixpoint first_free (n : nat) (busy : date -> bool) (d : date) : date :=
  match n with
  | O => d + 1
  | S n => if busy (d + 1) then first_free n busy (d + 1) else d + 1
  end.

(** ** South Korea *)

(** The named holidays: the day, the last day of its block, and when it earns a
    substitute. *)
Inductive claim : Set :=
| Never
| OnSundayOrShared     (* the two three-day festivals, since 2014 *)
| OnWeekendOrShared    (* Children's Day, since 2014 *)
| OnWeekend.           (* the national days since August 2021, Buddha's birthday and Christmas since May 2023 *)

Definition since (y a : Z) (c : claim) : claim := if a <=? y then c else Never.

Definition korea_named (y : Z) : list (date * date * claim) :=
  let day c m k := (of_ymd y m k, of_ymd y m k, c) in
  let three c d := [(d - 1, d + 1, c); (d, d + 1, c); (d + 1, d + 1, c)] in
  [day Never 1 1]
  ++ three (since y 2014 OnSundayOrShared) (seollal y)
  ++ [day (since y 2022 OnWeekend) 3 1]
  ++ (if y <=? 2005 then [day Never 4 5] else [])
  ++ [day (since y 2014 OnWeekendOrShared) 5 5;
      (korean_buddhas_birthday y, korean_buddhas_birthday y, since y 2023 OnWeekend); day Never 6 6]
  ++ (if y <=? 2007 then [day Never 7 17] else [])
  ++ [day (since y 2021 OnWeekend) 8 15]
  ++ three (since y 2014 OnSundayOrShared) (chuseok y)
  ++ [day (since y 2021 OnWeekend) 10 3]
  ++ (if 2013 <=? y then [day (since y 2021 OnWeekend) 10 9] else [])
  ++ [day (since y 2023 OnWeekend) 12 25].

Definition earns (days : list date) (h : date * date * claim) : bool :=
  let '(d, _, c) := h in
  match c with
  | Never => false
  | OnSundayOrShared => sunday d || shared days d
  | OnWeekendOrShared => weekend_day d || shared days d
  | OnWeekend => weekend_day d
  end.

(** The substitutes: for each holiday that earns one, the first day after its
    block that is not a weekend, a holiday or another substitute. *)
Fixpoint korea_substitutes (days : list date) (l : list (date * date * claim)) (acc : list date) : list date :=
  match l with
  | [] => acc
  | h :: l =>
    korea_substitutes days l
      (if earns days h
       then first_free 10 (fun d => weekend_day d || among days d || among acc d) (snd (fst h)) :: acc else acc)
  end.

(** Elections and other single closings; and Labour Day, on which the exchange
    closes. *)
Definition korea_once : list date :=
  map (fun t => match t with (y, m, k) => of_ymd y m k end)
  [(2004, 4, 15); (2006, 5, 31); (2007, 12, 19); (2008, 4, 9); (2010, 6, 2); (2012, 4, 11); (2012, 12, 19); (2014, 6, 4);
   (2015, 8, 14); (2016, 4, 13); (2017, 5, 9); (2018, 6, 13); (2020, 4, 15); (2020, 8, 17); (2022, 3, 9); (2022, 6, 1);
   (2023, 10, 2); (2024, 4, 10); (2024, 10, 1)].

Definition korea_days (y : Z) : list date :=
  let named := korea_named y in
  let days := map (fun h => fst (fst h)) named in
  days ++ korea_substitutes days named [] ++ [of_ymd y 5 1] ++ korea_once.

(** ** Hong Kong *)

(** The general holidays other than the lunar new year, in order. *)
Definition hong_kong_others (y : Z) : list date :=
  let e := easter_sunday y in
  let spring := [qingming y; e - 2; e - 1; e + 1] in
  let m := mid_autumn y + 1 in
  [of_ymd y 1 1] ++ spring
  ++ [of_ymd y 5 1; buddhas_birthday y; dragon_boat y; of_ymd y 7 1;
      (* the day after the mid-autumn festival; before 2012, the festival itself if that is a Sunday *)
      if sunday m && (y <? 2012) then m - 1 else m;
      of_ymd y 10 1; chung_yeung y; of_ymd y 12 25; of_ymd y 12 26].

(** Three days, and the fourth if one of them is a Sunday; before 2012, the eve
    if the first is. *)
Definition hong_kong_new_year (y : Z) : list date :=
  let d := chinese_new_year y in
  [d; d + 1; d + 2] ++
  (if sunday d && (y <? 2012) then [d - 1]
   else if sunday d || sunday (d + 1) || sunday (d + 2) then [d + 3] else []).

(** A holiday on a Sunday, or on the day of an earlier one, moves to the first
    day after it that is not a Sunday or a holiday. *)
Fixpoint hong_kong_moved (all : list date) (seen l acc : list date) : list date :=
  match l with
  | [] => acc
  | h :: l =>
    hong_kong_moved all (h :: seen) l
      (if sunday h || among seen h
       then first_free 10 (fun d => sunday d || among all d || among acc d) h :: acc else acc)
  end.

Definition hong_kong_days (y : Z) : list date :=
  let ny := hong_kong_new_year y in
  let others := hong_kong_others y in
  ny ++ others ++ hong_kong_moved (ny ++ others) ny others [].
