(** Proofs about the FX forward. *)
From Coq Require Import ZArith Lia Lra Bool List Reals.
Import ListNotations.
From Verif Require Import Outcome Ints Loop Date DateFacts Calendar CalendarSpec CalendarFacts Sorting Fx FxFacts
  ForwardPoints ForwardPointsFacts YieldCurve YieldCurveFacts FxForward.
Open Scope Z_scope.

Section Facts.
  Context (sort : list (date * R) -> list (date * R)) (search : list (date * R) -> Z -> nat + nat).
  Notation mtm := (forward_mtm sort search).
  Notation fwd := (get_forward sort search).

  (** Foreign amount bought. *)
  Definition foreign_amount (f : fx_forward) (frn : currency) : R :=
    if currency_eq_dec (ff_notional_currency f) frn then (ff_notional f * sign (ff_direction f))%R
    else (- ff_notional f / ff_strike f * sign (ff_direction f))%R.

  Lemma mtm_inv oc f m v : mtm oc f m = Ok v <->
    exists cal frn dom pts df, pair_calendar (ff_asset f) = Ok cal /\ frn_currency (ff_asset f) = Ok frn /\
      dom_currency (ff_asset f) = Ok dom /\
      fwd oc (fm_forwards m) (ff_expiry f) cal = Ok (Some pts) /\
      discount (fm_domestic m) (ff_expiry f) = Ok df /\
      v = (dom, foreign_amount f frn *
          (fm_spot m + pts / IZR (forward_points_converter (ff_asset f)) - ff_strike f) * df)%R.
  Proof.
    unfold forward_mtm. destruct (pair_halves (ff_asset f)) as (dom & frn & D & F & _).
    destruct (pair_calendar (ff_asset f)) as [cal| |]; cbn [obind];
      [|split; [discriminate|intros (? & ? & ? & ? & ? & H & _); discriminate]..].
    destruct (fwd oc (fm_forwards m) (ff_expiry f) cal) as [[pts|]| |] eqn:G; cbn [obind];
      [|split; [discriminate|intros (? & ? & ? & ? & ? & E & _ & _ & H & _); injection E as <-; congruence]..].
    destruct (discount (fm_domestic m) (ff_expiry f)) as [df| |] eqn:P; cbn [obind];
      [|split; [discriminate|intros (? & ? & ? & ? & ? & _ & _ & _ & _ & H & _); congruence]..].
    rewrite F, D. cbn [obind]. unfold foreign_amount. split.
    - intros H. exists cal, frn, dom, pts, df. repeat (split; [assumption || reflexivity|]).
      apply (f_equal (fun o => match o with Ok x => x | _ => v end)) in H. rewrite <- H.
      destruct (currency_eq_dec (ff_notional_currency f) frn); reflexivity.
    - intros (cal' & frn' & dom' & pts' & df' & E1 & E2 & E3 & E4 & E5 & ->).
      injection E1 as <-. injection E2 as <-. injection E3 as <-. rewrite G in E4. injection E4 as <-. injection E5 as <-.
      destruct (currency_eq_dec (ff_notional_currency f) frn); reflexivity.
  Qed.
End Facts.
