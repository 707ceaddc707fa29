(** Holiday laws as lists of rules (HolidayRules.v), written from the published
    holiday laws and exchange closing days the comments of
    /repo/src/time/calendars name, not from the code's conditions. *)
From Coq Require Import ZArith List.
Import ListNotations.
From Verif Require Import Date HolidayRules.
Open Scope Z_scope.

Definition since (y : Z) (r : rule) : rule := During y 2199 r.
Definition until (y : Z) (r : rule) : rule := During 1901 y r.

Definition maundy_thursday := FromEaster (-3).
Definition good_friday := FromEaster (-2).
Definition easter_day_after := FromEaster 1.
Definition ascension := FromEaster 39.
Definition whit_monday := FromEaster 50.
Definition corpus_christi := FromEaster 60.
Definition new_year := Fixed 1 1.
Definition labour_day := Fixed 5 1.
Definition christmas_eve := Fixed 12 24.
Definition christmas := Fixed 12 25.
Definition second_christmas := Fixed 12 26.
Definition new_year_eve := Fixed 12 31.
(** The Friday of the week in which Midsummer's Day (a Saturday, 20 to 26 June) falls. *)
Definition midsummer_eve := FirstFrom Fri 6 19.

Definition target_rules :=
  [new_year; since 2000 good_friday; since 2000 easter_day_after; since 2000 labour_day; christmas;
   since 2000 second_christmas; Once 1998 12 31; Once 1999 12 31; Once 2001 12 31].
Definition switzerland_rules :=
  [new_year; Fixed 1 2; good_friday; easter_day_after; ascension; whit_monday; labour_day; Fixed 8 1; christmas; second_christmas].
Definition hungary_rules :=
  [new_year; Fixed 3 15; since 2017 good_friday; easter_day_after; whit_monday; labour_day; Fixed 8 20; Fixed 10 23; Fixed 11 1;
   christmas; second_christmas].
Definition norway_rules :=
  [new_year; maundy_thursday; good_friday; easter_day_after; ascension; whit_monday; labour_day; Fixed 5 17;
   since 2002 christmas_eve; christmas; second_christmas].
Definition finland_rules :=
  [new_year; Fixed 1 6; good_friday; easter_day_after; ascension; labour_day; midsummer_eve; Fixed 12 6; christmas_eve;
   christmas; second_christmas].
Definition sweden_rules :=
  [new_year; Fixed 1 6; good_friday; easter_day_after; ascension; until 2004 whit_monday; labour_day; since 2005 (Fixed 6 6);
   midsummer_eve; christmas_eve; christmas; second_christmas; new_year_eve].
(** Great Prayer Day, the fourth Friday after Easter, was abolished in 2024. *)
Definition denmark_rules :=
  [new_year; maundy_thursday; good_friday; easter_day_after; until 2023 (FromEaster 26); ascension; since 2009 (FromEaster 40);
   whit_monday; Fixed 6 5; christmas_eve; christmas; second_christmas; new_year_eve].
(** The first day of summer is the Thursday following 18 April. *)
Definition iceland_rules :=
  [new_year; maundy_thursday; good_friday; easter_day_after; FirstFrom Thu 4 19; ascension; whit_monday; labour_day; Fixed 6 17;
   Nth 1 Mon 8; christmas; second_christmas].
Definition romania_rules :=
  [new_year; Fixed 1 2; Fixed 1 24; FromOrthodoxEaster 1; labour_day; FromOrthodoxEaster 50; since 2017 (Fixed 6 1);
   Fixed 8 15; Fixed 11 30; Fixed 12 1; christmas; second_christmas].
Definition czech_rules :=
  [new_year; since 2016 good_friday; easter_day_after; labour_day; Fixed 5 8; Fixed 7 5; Fixed 7 6; Fixed 9 28; Fixed 10 28;
   Fixed 11 17; christmas_eve; christmas; second_christmas; Once 2004 1 2; Once 2004 12 31].
Definition slovakia_rules :=
  [new_year; Fixed 1 6; good_friday; easter_day_after; labour_day; Fixed 5 8; Fixed 7 5; Fixed 8 29; Fixed 9 1; Fixed 9 15;
   Fixed 11 1; Fixed 11 17; christmas_eve; christmas; second_christmas] ++
  flat_map (fun k => [Once 2004 12 k; Once 2005 12 k]) [27; 28; 29; 30; 31].
Definition poland_rules :=
  [new_year; since 2011 (Fixed 1 6); easter_day_after; labour_day; Fixed 5 3; corpus_christi; Fixed 8 15; Fixed 11 1; Fixed 11 11;
   christmas; second_christmas].
Definition poland_wse_rules := christmas_eve :: new_year_eve :: poland_rules.
Definition italy_rules :=
  [new_year; Fixed 1 6; easter_day_after; Fixed 4 25; labour_day; since 2000 (Fixed 6 2); Fixed 8 15; Fixed 11 1; Fixed 12 8;
   christmas; second_christmas; Once 1999 12 31].
Definition italy_exchange_rules :=
  [new_year; good_friday; easter_day_after; labour_day; Fixed 8 15; christmas_eve; christmas; second_christmas; new_year_eve].
Definition austria_rules :=
  [new_year; Fixed 1 6; easter_day_after; ascension; whit_monday; corpus_christi; labour_day; Fixed 8 15;
   since 1967 (Fixed 10 26); During 1919 1934 (Fixed 11 12); Fixed 11 1; Fixed 12 8; christmas; second_christmas].
Definition austria_exchange_rules :=
  [new_year; good_friday; easter_day_after; whit_monday; labour_day; since 1967 (Fixed 10 26); During 1919 1934 (Fixed 11 12);
   christmas_eve; christmas; second_christmas; new_year_eve].
Definition germany_rules :=
  [new_year; good_friday; easter_day_after; ascension; whit_monday; corpus_christi; labour_day; Fixed 10 3; christmas_eve;
   christmas; second_christmas].
Definition frankfurt_rules :=
  [new_year; good_friday; easter_day_after; labour_day; christmas_eve; christmas; second_christmas].
Definition eurex_rules := new_year_eve :: frankfurt_rules.
Definition euwax_rules := whit_monday :: frankfurt_rules.
Definition euronext_rules :=
  [new_year; good_friday; easter_day_after; labour_day; christmas_eve; christmas; second_christmas; new_year_eve].

(** The Public Holidays Act 36 of 1994: a holiday on a Sunday moves to the
    Monday; 25 December does not, the 26th being a holiday. *)
Definition southafrica_rules :=
  [SundayToMonday 1 1; SundayToMonday 3 21; good_friday; easter_day_after; SundayToMonday 4 27; SundayToMonday 5 1;
   SundayToMonday 6 16; SundayToMonday 8 9; SundayToMonday 9 24; SundayToMonday 12 16; christmas; SundayToMonday 12 26;
   Once 2004 4 14; Once 2009 4 22; Once 2016 8 3; Once 2021 11 1; Once 2022 12 27; Once 2023 12 15; Once 2024 5 29].
Definition mexico_rules :=
  [new_year; until 2005 (Fixed 2 5); since 2006 (Nth 1 Mon 2); until 2005 (Fixed 3 21); since 2006 (Nth 3 Mon 3);
   maundy_thursday; good_friday; labour_day; Fixed 9 16; Fixed 11 2; until 2005 (Fixed 11 20); since 2006 (Nth 3 Mon 11);
   Fixed 12 12; christmas;
   (* transmission of the executive power, every six years *)
   since 2024 (Yearly (fun y => if y mod 6 =? 2 then Fixed 10 1 else christmas))].
Definition brazil_rules :=
  [new_year; FromEaster (-48); FromEaster (-47); good_friday; Fixed 4 21; labour_day; corpus_christi; Fixed 9 7; Fixed 10 12;
   Fixed 11 2; Fixed 11 15; since 2024 (Fixed 11 20); christmas].
Definition brazil_exchange_rules :=
  [new_year; until 2021 (Fixed 1 25); FromEaster (-48); FromEaster (-47); good_friday; Fixed 4 21; labour_day; corpus_christi;
   until 2021 (Fixed 7 9); Fixed 9 7; Fixed 10 12; Fixed 11 2; Fixed 11 15; During 2007 2021 (Fixed 11 20);
   since 2024 (Fixed 11 20); christmas_eve; christmas; LastWorkday 12].

Definition australia_asx_rules :=
  [OrMonday 1 1; OrMonday 1 26; good_friday; easter_day_after; Fixed 4 25; Nth 2 Mon 6; TwoDays 12 25; Once 2022 9 22].
Definition australia_rules := Nth 1 Mon 8 :: Nth 1 Mon 10 :: australia_asx_rules.
(** Victoria Day is the Monday preceding 25 May. *)
Definition canada_tsx_rules :=
  [OrMonday 1 1; since 2008 (Nth 3 Mon 2); good_friday; FirstFrom Mon 5 18; OrMonday 7 1; Nth 1 Mon 8; Nth 1 Mon 9;
   since 2021 (OrMonday 9 30); Nth 2 Mon 10; TwoDays 12 25].
Definition canada_rules := OrMonday 11 11 :: canada_tsx_rules.

(** Te Kāhui o Matariki Public Holiday Act 2022, schedule 1. *)
Definition matariki : list rule :=
  [Once 2022 6 24; Once 2023 7 14; Once 2024 6 28; Once 2025 6 20; Once 2026 7 10; Once 2027 6 25; Once 2028 7 14; Once 2029 7 6;
   Once 2030 6 21; Once 2031 7 11; Once 2032 7 2; Once 2033 6 24; Once 2034 7 7; Once 2035 6 29; Once 2036 7 18; Once 2037 7 10;
   Once 2038 6 25; Once 2039 7 15; Once 2040 7 6; Once 2041 7 19; Once 2042 7 11; Once 2043 7 3; Once 2044 6 24; Once 2045 7 7;
   Once 2046 6 29; Once 2047 7 19; Once 2048 7 3; Once 2049 6 25; Once 2050 7 15; Once 2051 6 30; Once 2052 6 21].
Definition newzealand_rules :=
  [TwoDays 1 1; Fixed 2 6; since 2014 (OrMonday 2 6); good_friday; easter_day_after; Fixed 4 25; since 2014 (OrMonday 4 25);
   Nth 1 Mon 6; Nth 4 Mon 10; TwoDays 12 25; Once 2022 9 26] ++ matariki.
(** Provincial anniversaries: the Monday nearest 22 January (Wellington) and
    29 January (Auckland). *)
Definition wellington_rules := FirstFrom Mon 1 19 :: newzealand_rules.
Definition auckland_rules := FirstFrom Mon 1 26 :: newzealand_rules.

(** Early May, spring and summer bank holidays, moved for the VE-day
    anniversaries and the jubilees. *)
Definition unitedkingdom_rules :=
  [OrMonday 1 1; good_friday; easter_day_after;
   until 1994 (Nth 1 Mon 5); During 1996 2019 (Nth 1 Mon 5); since 2021 (Nth 1 Mon 5); Once 1995 5 8; Once 2020 5 8;
   until 2001 (LastOf Mon 5); During 2003 2011 (LastOf Mon 5); During 2013 2021 (LastOf Mon 5); since 2023 (LastOf Mon 5);
   Once 2002 6 3; Once 2002 6 4; Once 2012 6 4; Once 2012 6 5; Once 2022 6 2; Once 2022 6 3;
   LastOf Mon 8; TwoDays 12 25; Once 1999 12 31; Once 2011 4 29; Once 2022 9 19; Once 2023 5 8].

(** 5 U.S.C. 6103 and the Uniform Monday Holiday Act (from 1971). *)
Definition king_day := since 1983 (Nth 3 Mon 1).
Definition washington := [until 1970 (Observed 2 22); since 1971 (Nth 3 Mon 2)].
Definition memorial := [until 1970 (Observed 5 30); since 1971 (LastOf Mon 5)].
Definition juneteenth := since 2022 (Observed 6 19).
Definition labor_day := Nth 1 Mon 9.
Definition columbus := since 1971 (Nth 2 Mon 10).
(** Armistice Day fell on the fourth Monday of October from 1971 to 1977; [f]
    says how 11 November moves. *)
Definition veterans (f : Z -> Z -> rule) := [until 1970 (f 11 11); During 1971 1977 (Nth 4 Mon 10); since 1978 (f 11 11)].
Definition thanksgiving := Nth 4 Thu 11.

Definition us_settlement_rules :=
  [Observed 1 1; king_day; juneteenth; Observed 7 4; labor_day; columbus; thanksgiving; Observed 12 25] ++
  washington ++ memorial ++ veterans Observed.
(** From 2015 the LIBOR market does not move 4 July. *)
Definition us_libor_rules :=
  [Observed 1 1; king_day; juneteenth; until 2014 (Observed 7 4); since 2015 (Fixed 7 4); labor_day; columbus; thanksgiving;
   Observed 12 25] ++ washington ++ memorial ++ veterans Observed.
(** Good Friday is a working day when the employment report falls on it (the
    first seven days of a month, since 1996). *)
Definition us_bond_rules :=
  [SundayToMonday 1 1; king_day; until 1995 good_friday; since 1996 (PastDay 7 good_friday); juneteenth; Observed 7 4; labor_day;
   columbus; thanksgiving; Observed 12 25; Once 2004 6 11; Once 2012 10 30; Once 2018 12 5; Once 2025 1 9] ++
  washington ++ memorial ++ veterans SundayToMonday.
Definition us_sofr_rules := good_friday :: us_bond_rules.
Definition us_nerc_rules :=
  [SundayToMonday 1 1; SundayToMonday 7 4; labor_day; thanksgiving; SundayToMonday 12 25] ++ memorial.
(** The Federal Reserve Banks stay open on the Friday before a Saturday
    holiday; [j] is the rule for Juneteenth. *)
Definition us_fed_rules_with (j : rule) :=
  [SundayToMonday 1 1; king_day; j; SundayToMonday 7 4; labor_day; columbus; thanksgiving; SundayToMonday 12 25] ++
  washington ++ memorial ++ veterans SundayToMonday.
(** The New York Stock Exchange; [election] are its election days up to 1980. *)
Definition us_nyse_rules_with (election : list rule) :=
  [SundayToMonday 1 1; since 1998 (Nth 3 Mon 1); good_friday; juneteenth; Observed 7 4; labor_day; thanksgiving; Observed 12 25] ++
  washington ++ memorial ++ election ++
  [Once 2018 12 5; Once 2012 10 29; Once 2012 10 30; Once 2007 1 2; Once 2004 6 11; Once 2001 9 11; Once 2001 9 12; Once 2001 9 13;
   Once 2001 9 14; Once 1994 4 27; Once 1985 9 27; Once 1977 7 14; Once 1973 1 25; Once 1972 12 28; Once 1969 7 21; Once 1969 3 31;
   Once 1969 2 10; Once 1968 7 5; Once 1968 4 9; Once 1963 11 25; Once 1961 5 29; Once 1958 12 26; Once 1954 12 24; Once 1956 12 24;
   Once 1965 12 24] ++
  (* the Wednesdays of the 1968 paperwork crisis, from 12 June *)
  flat_map (fun t => map (Once 1968 (fst t)) (snd t))
    [(6, [12; 19; 26]); (7, [3; 10; 17; 24; 31]); (8, [7; 14; 21; 28]); (9, [4; 11; 18; 25]); (10, [2; 9; 16; 23; 30]);
     (11, [6; 13; 20; 27]); (12, [4; 11; 18; 25])].
Definition election_years (r : rule) : list rule := [until 1968 r; During 1972 1972 r; During 1976 1976 r; During 1980 1980 r].
(** 2 U.S.C. 7: the Tuesday next after the first Monday of November. *)
Definition election_day : rule := FirstFrom Tue 11 2.

Definition ukraine_rules_with (easter : Z -> rule) :=
  [OrMonday 1 1; OrMonday 1 7; OrMonday 3 8; easter 1; easter 50; Fixed 5 1; SundayToMonday 5 2; OrMonday 5 9; Fixed 6 28;
   Fixed 8 24; since 2015 (Fixed 10 14)].
(** [a] and [p] are Ascension Day and Whit Monday. *)
Definition france_rules_with (a p : rule) :=
  [new_year; easter_day_after; labour_day; Fixed 5 8; a; p; Fixed 7 14; Fixed 8 15; Fixed 11 1; Fixed 11 11; christmas].

(** Law 23.555: a Tuesday or Wednesday goes back to the Monday, a Thursday or
    Friday on to the next; [xs] is what is said about Christmas Day. *)
Definition argentina_rules_with (xs : list rule) :=
  [new_year; maundy_thursday; good_friday; labour_day; Fixed 5 25; Nth 3 Mon 6; Fixed 7 9; Nth 3 Mon 8; OnA Mon (ToMonday Wed 10 12);
   Fixed 12 8; christmas_eve; new_year_eve; OnA Fri (Fixed 12 30)] ++ xs.
(** Laws 19.668 (a Tuesday to Thursday goes back to the Monday, a Friday on to
    the next), 20.299 (Reformation Day), 20.215 and 20.983 (bridges around the
    18 and 19 September); [solstice] is the June day of the Aboriginal People. *)
Definition chile_rules_with (solstice : Z -> Z) :=
  [new_year; since 2017 (SundayToMonday 1 1); Once 2018 1 16; good_friday; Once 2017 4 19; labour_day; Fixed 5 21;
   since 2021 (Yearly (fun y => Fixed 6 (solstice y))); OnA Mon (ToMonday Thu 6 29); Fixed 7 16; Fixed 8 15; Once 2022 9 16;
   since 2007 (OnA Mon (Fixed 9 17)); since 2017 (OnA Fri (Fixed 9 17)); Fixed 9 18; Fixed 9 19; since 2007 (OnA Fri (Fixed 9 20));
   OnA Mon (ToMonday Thu 10 12); since 2008 (ToFriday 10 31); Fixed 11 1; Fixed 12 8; christmas; new_year_eve].
Definition botswana_rules :=
  [SundayToMonday 1 1; OnA Tue (Fixed 1 3); good_friday; easter_day_after; SundayToMonday 5 1; ascension; SundayToMonday 7 1;
   Nth 3 Mon 7; SundayToMonday 9 30; SundayToMonday 10 1; OnA Tue (Fixed 10 3); christmas; SundayToMonday 12 26].

(** [ve] and [ae] are the days of March and September of the equinoxes.  A
    Tuesday between Respect for the Aged Day and the autumnal equinox is a
    holiday too. *)
Definition japan_rules_with (ve ae : Z -> Z) :=
  [new_year; Fixed 1 2; Fixed 1 3; until 1999 (SundayToMonday 1 15); since 2000 (Nth 2 Mon 1); SundayToMonday 2 11;
   since 2020 (SundayToMonday 2 23); During 1989 2018 (SundayToMonday 12 23); Yearly (fun y => SundayToMonday 3 (ve y));
   SundayToMonday 4 29; Fixed 5 3; Fixed 5 4; Fixed 5 5; OnA Mon (Fixed 5 6); OnA Tue (Fixed 5 6); OnA Wed (Fixed 5 6);
   During 1996 2002 (SundayToMonday 7 20); During 2003 2019 (Nth 3 Mon 7); Once 2020 7 23; Once 2021 7 22; since 2022 (Nth 3 Mon 7);
   During 2016 2019 (SundayToMonday 8 11); Once 2020 8 10; Once 2021 8 9; since 2022 (SundayToMonday 8 11);
   until 2002 (SundayToMonday 9 15); since 2003 (Nth 3 Mon 9); Yearly (fun y => SundayToMonday 9 (ae y));
   since 2003 (Yearly (fun y => OnA Tue (Fixed 9 (ae y - 1))));
   until 1999 (SundayToMonday 10 10); During 2000 2019 (Nth 2 Mon 10); Once 2020 7 24; Once 2021 7 23; since 2022 (Nth 2 Mon 10);
   SundayToMonday 11 3; SundayToMonday 11 23; new_year_eve; Once 1959 4 10; Once 1989 2 24; Once 1990 11 12; Once 1993 6 9;
   Once 2019 4 30; Once 2019 5 1; Once 2019 5 2; Once 2019 10 22].
(** The days of the equinoxes in Japan from 1980 to 2099, by the formula of the
    Japanese almanac offices (Shinkawa): in millionths of a day,
    20.8431 (March) and 23.2488 (September) plus 0.242194 per year since 1980,
    less the leap days since 1980. *)
Definition vernal_equinox (y : Z) : Z := (20843100 + 242194 * (y - 1980)) / 1000000 - (y - 1980) / 4.
Definition autumnal_equinox (y : Z) : Z := (23248800 + 242194 * (y - 1980)) / 1000000 - (y - 1980) / 4.
