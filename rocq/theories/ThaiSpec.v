(** The Buddhist days of the Thai lunar calendar, 2000-2026, and the other
    holidays of Thailand and Russia as lists of rules (HolidayRules.v).  They are
    written from the announcements of the Bank of Thailand and of the Moscow
    Exchange and from article 112 of the Russian labour code.  Nothing here
    models code. *)
From Coq Require Import ZArith List.
Import ListNotations.
From Verif Require Import Date HolidayRules HolidayTables.
Open Scope Z_scope.

(** ** The Thai lunar calendar.  Odd months have 29 days and even months 30; a
    year of the second list has a thirtieth day in month 7, one of the first
    list has month 8 twice. *)
Definition extra_month : list Z := [2002; 2004; 2007; 2010; 2012; 2015; 2018; 2021; 2023; 2026].
Definition extra_day : list Z := [2000; 2005; 2009; 2016; 2020; 2025].
Definition has (l : list Z) (y : Z) : bool := existsb (Z.eqb y) l.
Definition lunar_year (y : Z) : Z := if has extra_month y then 384 else if has extra_day y then 355 else 354.

(** The full moon (fifteenth) of month 3, 19 February in 2000. *)
Fixpoint third_moon_from (n : nat) : date :=
  match n with O => of_ymd 2000 2 19 | S k => third_moon_from k + lunar_year (2000 + Z.of_nat k) end.
Definition third_moon (y : Z) : date := third_moon_from (Z.to_nat (y - 2000)).

(** Makha Bucha is the full moon of month 3, Wisakha Bucha that of month 6 and
    Asarnha Bucha that of month 8; with an extra month the first two move to
    months 4 and 7, and the third is in the second month 8. *)
Definition makha (y : Z) : date := third_moon y + (if has extra_month y then 29 else 0).
Definition wisakha (y : Z) : date := makha y + (if has extra_month y then 89 else 88).
Definition asarnha (y : Z) : date := wisakha y + (if has extra_day y then 60 else 59).

(** The day, or the Monday after it. *)
Definition onto_weekday (d : date) : date := match weekday_of d with Sat => d + 2 | Sun => d + 1 | _ => d end.

(** Until 2006 the day after Asarnha Bucha, the start of the Buddhist Lent, was
    the holiday. *)
Definition buddhist_days (y : Z) : list date :=
  map onto_weekday [makha y; wisakha y; if y <=? 2006 then asarnha y + 1 else asarnha y].

(** ** The other holidays of Thailand. *)
Definition except (y : Z) (r : rule) : list rule := [until (y - 1) r; since (y + 1) r].
Definition thailand_rules : list rule :=
  [OrMonday 1 1; OrMonday 4 6; OrMonday 5 1; OrMonday 8 12; OrMonday 12 5; OrMonday 12 10; Fixed 12 31] ++
  (* Songkran, with its substitutes; not in 2020 *)
  except 2020 (Fixed 4 13) ++ except 2020 (Fixed 4 14) ++ except 2020 (Fixed 4 15) ++
  except 2020 (OnA Mon (Fixed 4 16)) ++ except 2020 (OnA Tue (Fixed 4 16)) ++
  (* Chulalongkorn day, moved once *)
  except 2021 (OrMonday 10 23) ++ [Once 2021 10 22] ++
  (* Coronation day of the late and of the present king, their birthdays *)
  [During 2000 2001 (OrMonday 5 5); Once 2001 5 8; During 2005 2016 (OrMonday 5 5); since 2019 (OrMonday 5 4);
   since 2017 (OrMonday 7 28); since 2019 (OrMonday 6 3); since 2017 (OrMonday 10 13)] ++
  (* the banks' closing of the half-year *)
  [During 2005 2016 (Fixed 7 1)] ++
  (* announced for one year *)
  [Once 2006 4 19; Once 2006 6 12; Once 2006 6 13; Once 2007 12 24; Once 2009 1 2; Once 2009 7 6; Once 2010 5 20; Once 2010 5 21;
   Once 2010 8 13; Once 2011 5 16; Once 2012 1 3; Once 2012 4 9; Once 2013 12 30; Once 2014 8 11; Once 2015 1 2; Once 2015 5 4;
   Once 2016 5 6; Once 2016 7 18; Once 2017 10 26; Once 2020 7 27; Once 2020 9 4; Once 2020 9 7; Once 2020 12 11;
   Once 2021 2 12; Once 2021 9 24; Once 2022 7 29; Once 2022 10 14; Once 2023 5 5; Once 2023 12 29; Once 2024 4 12].

(** ** Russia. *)
Definition russia_rules : list rule :=
  [Fixed 1 1; Fixed 1 2; since 2005 (Fixed 1 3); since 2005 (Fixed 1 4); since 2005 (Fixed 1 5); Once 2012 1 6; OrMonday 1 7;
   OrMonday 2 23; OrMonday 3 8; OrMonday 5 1; OrMonday 5 9; OrMonday 6 12; OrMonday 11 4;
   Once 2017 2 24; Once 2017 5 8; Once 2018 3 9; Once 2018 4 30; Once 2018 5 2; Once 2018 6 11; Once 2018 12 31;
   Once 2019 5 2; Once 2019 5 3; Once 2020 3 30; Once 2020 3 31; Once 2020 4 1; Once 2020 4 2; Once 2020 4 3].

Definition moscow_exchange_rules : list rule :=
  [Fixed 2 23; OrMonday 3 8; Fixed 5 1; OrMonday 5 9; Fixed 6 12; OrMonday 11 4; Fixed 12 31;
   Once 2012 1 2; Once 2012 3 9; Once 2012 4 30; Once 2012 6 11;
   During 2013 2016 (Fixed 1 1); During 2018 2020 (Fixed 1 1); During 2013 2015 (Fixed 1 2); During 2017 2020 (Fixed 1 2);
   During 2013 2014 (Fixed 1 3); Once 2013 1 4; During 2013 2016 (Fixed 1 7); During 2019 2020 (Fixed 1 7);
   Once 2016 1 8; Once 2016 5 2; Once 2016 5 3; Once 2016 6 13; Once 2016 12 30; Once 2017 5 8; Once 2018 1 8;
   Once 2020 2 24; Once 2020 6 24; Once 2020 7 1].

(** The Saturdays and Sundays on which the exchange traded. *)
Definition moscow_working_weekends : list (Z * Z * Z) :=
  [(2012, 3, 11); (2012, 4, 28); (2012, 5, 5); (2012, 5, 12); (2012, 6, 9); (2016, 2, 20); (2018, 4, 28); (2018, 6, 9); (2018, 12, 29)].
