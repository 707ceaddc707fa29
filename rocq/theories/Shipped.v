(** The shipped calendars as one type, so that a statement can quantify over
    all of them.  Generated by tools/calendars.py together with the Cal_* files. *)
From Verif Require Import Outcome Date Calendar Cal_argentina
  Cal_australia
  Cal_austria
  Cal_botswana
  Cal_brazil
  Cal_canada
  Cal_chile
  Cal_china
  Cal_czechrepublic
  Cal_denmark
  Cal_finland
  Cal_france
  Cal_germany
  Cal_hongkong
  Cal_hungary
  Cal_iceland
  Cal_india
  Cal_indonesia
  Cal_israel
  Cal_italy
  Cal_japan
  Cal_mexico
  Cal_newzealand
  Cal_norway
  Cal_poland
  Cal_romania
  Cal_russia
  Cal_singapore
  Cal_slovakia
  Cal_southafrica
  Cal_southkorea
  Cal_sweden
  Cal_switzerland
  Cal_taiwan
  Cal_target
  Cal_thailand
  Cal_turkey
  Cal_ukraine
  Cal_unitedkingdom
  Cal_unitedstates.

(** The structs implementing [Calendar] in src/time/calendars/*.rs (JointCalendar,
    which contains other calendars, is [Calendar.joint]). *)
Inductive shipped : Set :=
| WeekendsOnly
| Argentina
| Australia (m : option australia_market)
| Austria (m : option austria_market)
| Botswana
| Brazil (m : option brazil_market)
| Canada (m : option canada_market)
| Chile
| China
| CzechRepublic
| Denmark
| Finland
| France (m : option france_market)
| Germany (m : option germany_market)
| HongKong
| Hungary
| Iceland
| India
| Indonesia
| Israel (m : option israel_market)
| Italy (m : option italy_market)
| Japan
| Mexico
| NewZealand (m : option newzealand_market)
| Norway
| Poland (m : option poland_market)
| Romania
| Russia (m : option russia_market)
| Singapore
| Slovakia
| SouthAfrica
| SouthKorea
| Sweden
| Switzerland
| Taiwan
| Target
| Thailand
| Turkey
| Ukraine
| UnitedKingdom (m : option unitedkingdom_market)
| UnitedStates (m : option unitedstates_market).

(** [is_business_day] of each (the dynamic dispatch of [Box<dyn Calendar>],
    src/time/calendars.rs:160-202). *)
Definition shipped_calendar (s : shipped) : calendar :=
  match s with
  | WeekendsOnly => weekends_only
  | Argentina => argentina_is_business_day
  | Australia m => australia_is_business_day m
  | Austria m => austria_is_business_day m
  | Botswana => botswana_is_business_day
  | Brazil m => brazil_is_business_day m
  | Canada m => canada_is_business_day m
  | Chile => chile_is_business_day
  | China => china_is_business_day
  | CzechRepublic => czechrepublic_is_business_day
  | Denmark => denmark_is_business_day
  | Finland => finland_is_business_day
  | France m => france_is_business_day m
  | Germany m => germany_is_business_day m
  | HongKong => hongkong_is_business_day
  | Hungary => hungary_is_business_day
  | Iceland => iceland_is_business_day
  | India => india_is_business_day
  | Indonesia => indonesia_is_business_day
  | Israel m => israel_is_business_day m
  | Italy m => italy_is_business_day m
  | Japan => japan_is_business_day
  | Mexico => mexico_is_business_day
  | NewZealand m => newzealand_is_business_day m
  | Norway => norway_is_business_day
  | Poland m => poland_is_business_day m
  | Romania => romania_is_business_day
  | Russia m => russia_is_business_day m
  | Singapore => singapore_is_business_day
  | Slovakia => slovakia_is_business_day
  | SouthAfrica => southafrica_is_business_day
  | SouthKorea => southkorea_is_business_day
  | Sweden => sweden_is_business_day
  | Switzerland => switzerland_is_business_day
  | Taiwan => taiwan_is_business_day
  | Target => target_is_business_day
  | Thailand => thailand_is_business_day
  | Turkey => turkey_is_business_day
  | Ukraine => ukraine_is_business_day
  | UnitedKingdom m => unitedkingdom_is_business_day m
  | UnitedStates m => unitedstates_is_business_day m
  end.
