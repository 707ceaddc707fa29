(** Presenting a shipped calendar as a function of the parts of a date, so that
    Closure.v can walk it.  Nothing here models code. *)
From Coq Require Import ZArith Bool List.
From Verif Require Import Outcome Date Calendar CalendarSpec Cal_base ShippedFacts Closure.
Open Scope Z_scope.

Definition env_t : Type := (Z * outcome Z * outcome Z)%type.
Definition view_t : Type := env_t -> Z -> weekday -> Z -> Z -> outcome bool.
Definition year_env (y : Z) : env_t := (y, easter_monday y, orthodox_easter_monday y).

(** From [t : date -> outcome bool], unfolded, abstract the date's parts. *)
Ltac mkview t :=
  let f := constr:(fun n : date => ltac:(
    let b := eval cbv beta in (t n) in
    let p := eval pattern (easter_monday (year n)), (orthodox_easter_monday (year n)) in b in
    match p with ?G _ _ =>
      let q := eval pattern (ordinal n), (year n), (month n), (weekday_of n), (day n) in G in
      match q with ?F _ _ _ _ _ =>
        let r := eval cbv beta in
          (fun (e : env_t) (d : Z) (w : weekday) (m o : Z) =>
             match e with (y, em, om) => F o y m w d em om end) in
        exact r end end)) in
  match f with fun _ => ?F => exact F end.

(** The calendar opens within [K] days in both directions, everywhere in the
    supported years. *)
Definition closes_at_most (K : nat) (c : calendar) : Prop :=
  (forall x, of_ymd 1901 1 1 <= x <= of_ymd 2199 12 31 - Z.of_nat K ->
     exists r, x <= r <= x + Z.of_nat K /\ opened c r) /\
  (forall x, of_ymd 1901 1 1 + Z.of_nat K <= x <= of_ymd 2199 12 31 ->
     exists r, x - Z.of_nat K <= r <= x /\ opened c r).

Lemma view_sound (F : view_t) (K : nat) (c : calendar) :
  (forall n, c n = F (year_env (year n)) (day n) (weekday_of n) (month n) (ordinal n)) ->
  Nat.leb 6 K = true -> walk_years F year_env K 299 1901 Tue 0 = true -> closes_at_most K c.
Proof.
  intros V L W. apply (closure_sound F year_env K c (fun n _ => V n)); [|exact W].
  apply PeanoNat.Nat.leb_le. exact L.
Qed.
