(** Forward points by tenor.  Quote values are real numbers (rounding of the
    interpolation is idealised away); dates and indices are exact. *)
From Coq Require Import ZArith Bool List Reals.
Import ListNotations.
From Verif Require Import Outcome Ints Loop Date Calendar Sorting.
Open Scope Z_scope.

(** src/markets/forex/quotes/forwardpoints.rs:49-53  struct FXForwardQuote *)
Record fwd_quote := { fq_tenor : period; fq_value : R }.

(** src/markets/forex/quotes/forwardpoints.rs:55-63  struct FXForwardHelper.
    Simplification: the observer list is modelled separately (Observer.v). *)
Record fwd_helper := {
  fh_valuation_date : date; fh_spot_ref : R; fh_spot_lag : Z; fh_quotes : list fwd_quote }.

(** [iter().map(f).collect::<Result<Vec<_>>>()]: stops at the first error. *)
Fixpoint omapM {A B} (f : A -> outcome B) (l : list A) : outcome (list B) :=
  match l with
  | [] => Ok []
  | a :: r => do b <- f a; do bs <- omapM f r; Ok (b :: bs)
  end.

(** src/markets/forex/quotes/forwardpoints.rs:100-113  the dated quotes *)
Definition dated_quotes (oc : bool) (h : fwd_helper) (c : calendar) : outcome (list (date * R)) :=
  omapM (fun q => do d <- settlement_date_with_lag oc (fq_tenor q) (fh_valuation_date h) c (fh_spot_lag h);
                  Ok (d, fq_value q)) (fh_quotes h).

(** src/markets/forex/quotes/forwardpoints.rs:135-144  interpolation between two
    dated quotes.  [total.abs() < f64::EPSILON] on an integral number of days is
    [total = 0]. *)
Definition interpolate (s e : date * R) (target : date) : R :=
  let total := fst e - fst s in
  if total =? 0 then snd s
  else (snd s + (snd e - snd s) * (IZR (target - fst s) / IZR total))%R.

(** src/markets/forex/quotes/forwardpoints.rs:87-147  FXForwardHelper::get_forward.
    [sort] and [search] stand for the standard library's sort_unstable_by_key
    and binary_search_by_key, of which only the contract is known (Sorting.v). *)
Definition get_forward (sort : list (date * R) -> list (date * R))
    (search : list (date * R) -> Z -> nat + nat)
    (oc : bool) (h : fwd_helper) (target : date) (c : calendar) : outcome (option R) :=
  if target <=? fh_valuation_date h then Ok None
  else
    do dated <- dated_quotes oc h c;
    if (length dated <? 2)%nat then Ok None
    else
      let dated := sort dated in
      match search dated target with
      | inl i => match nth_error dated i with Some q => Ok (Some (snd q)) | None => Panic PIndex end
      | inr i =>
          if (i =? 0)%nat || (i =? length dated)%nat then Ok None
          else match nth_error dated (i - 1), nth_error dated i with
               | Some s, Some e => Ok (Some (interpolate s e target))
               | _, _ => Panic PIndex
               end
      end.
