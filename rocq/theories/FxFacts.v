(** Proofs about the FX pair tables. *)
From Coq Require Import ZArith Lia Bool String List.
Import ListNotations.
From Verif Require Import Outcome Ints Loop Date DateFacts Calendar CalendarSpec CalendarFacts AdjustFacts AdvanceFacts
  PeriodFacts Cal_base Shipped ShippedFacts DayCount Fx.
Open Scope Z_scope.

Lemma pair_halves p : exists dom frn,
  dom_currency p = Ok dom /\ frn_currency p = Ok frn /\ dom <> frn /\
  pair_name p = (currency_code frn ++ currency_code dom)%string.
Proof. destruct p; eexists _, _; repeat split; discriminate. Qed.

Lemma pair_from_str_name p : pair_from_str (pair_name p) = Some p.
Proof. destruct p; vm_compute; reflexivity. Qed.

Lemma pair_from_str_sound s p : pair_from_str s = Some p -> pair_name p = s.
Proof.
  intros H. apply find_some in H. destruct H as [_ H]. apply String.eqb_eq in H. exact H.
Qed.

Lemma fx_pairs_all p : In p fx_pairs.
Proof. destruct p; vm_compute; tauto. Qed.

Lemma currency_from_code_code c : currency_from_code (currency_code c) = Some c.
Proof. destruct c; vm_compute; reflexivity. Qed.

Lemma converter_jpy p : forward_points_converter p = 100 /\ dom_currency p = Ok JPY \/
  forward_points_converter p = 10000 /\ dom_currency p <> Ok JPY.
Proof. destruct p; (left; split; reflexivity) || (right; split; [reflexivity|discriminate]). Qed.

Lemma settles_table p :
  (settles p = 1 /\ frn_currency p = Ok USD /\
     exists c, dom_currency p = Ok c /\ In c [CAD; MXN; TRY; RUB]) \/
  (settles p = 2 /\ ~ (frn_currency p = Ok USD /\ exists c, dom_currency p = Ok c /\ In c [CAD; MXN; TRY; RUB])).
Proof.
  destruct p;
    (left; split; [reflexivity|split; [reflexivity|eexists; split; [reflexivity|cbn; tauto]]]) ||
    (right; split; [reflexivity|intros [E (c & D & I)]; vm_compute in E, D; try discriminate E;
       injection D as <-; cbn in I; repeat (destruct I as [I|I]; [discriminate I|]); exact I]).
Qed.

Lemma pair_calendar_ok p : exists dom frn cal,
  dom_currency p = Ok dom /\ frn_currency p = Ok frn /\ pair_calendar p = Ok cal /\
  forall d, opened cal d <->
    opened (shipped_calendar (currency_to_country dom)) d /\
    opened (shipped_calendar (currency_to_country frn)) d.
Proof.
  destruct (pair_halves p) as (dom & frn & D & F & _).
  exists dom, frn. unfold pair_calendar. rewrite D, F. cbn [obind].
  eexists. split; [reflexivity|]. split; [reflexivity|]. split; [reflexivity|].
  intros d. rewrite joint_open. split.
  - intros H. split; apply H; cbn; tauto.
  - intros [A B] c [<-|[<-|[]]]; assumption.
Qed.

Lemma pair_calendar_answers p cal d : pair_calendar p = Ok cal -> 1901 <= year d <= 2199 ->
  opened cal d \/ closed cal d.
Proof.
  intros E Y. unfold pair_calendar in E. destruct (dom_currency p) as [dom| |]; try discriminate.
  destruct (frn_currency p) as [frn| |]; try discriminate. injection E as <-.
  destruct (shipped_total (currency_to_country dom) d Y) as (a & A).
  destruct (shipped_total (currency_to_country frn) d Y) as (b & B).
  unfold opened, closed. cbn [joint]. rewrite A. cbn [obind]. destruct a; [|right; reflexivity].
  rewrite B. cbn [obind]. destruct b; [left|right]; reflexivity.
Qed.

Lemma effective_before p v t : t < cutoff_utc p -> effective_valuation_date p v t = Ok v.
Proof. intros H. unfold effective_valuation_date. destruct (Z.leb_spec (cutoff_utc p) t); [lia|reflexivity]. Qed.

Lemma effective_after p cal v t r : pair_calendar p = Ok cal -> in_range v -> cutoff_utc p <= t ->
  (effective_valuation_date p v t = Ok r <-> in_range r /\ first_open_from cal (v + 1) r).
Proof.
  intros C Hv Ht. unfold effective_valuation_date.
  destruct (Z.leb_spec (cutoff_utc p) t); [|lia]. rewrite C. cbn [obind].
  unfold add_days, mk_date. destruct (in_rangeb (v + 1)) eqn:R.
  - cbn [obind]. apply roll_up_Ok. unfold in_rangeb in R. unfold in_range. lia.
  - cbn [obind]. split; [discriminate|]. intros (Rr & F & _). exfalso.
    unfold in_rangeb in R. unfold in_range in *. change date with Z in *. lia.
Qed.

Lemma spot_all_open oc v c lag r : in_range v -> 0 <= lag ->
  opened c (v + lag) ->
  settlement_date_with_lag oc SPOT v c lag = Ok r -> r = v + lag.
Proof.
  intros Hv Hl O H.
  destruct (settlement_Ok oc SPOT v c lag r Hv (or_intror I) I H)
    as (base & s & e & -> & Rb & M & Rs & (Le & Oe & Ce) & D).
  cbn in M. subst s.
  destruct D as [[L ->]|[L [F _]]].
  - destruct (Z.eq_dec e (v + lag)) as [E|N]; [exact E|]. exfalso.
    assert (Hcl : closed c (v + lag)).
    { apply Ce. split; [unfold date in *; lia|]. exact (month_end_bounds (v + lag)). }
    unfold opened, closed in *. congruence.
  - destruct F as (A & B & C). destruct (Z.eq_dec r (v + lag)) as [E|N]; [exact E|]. exfalso.
    assert (Hcl : closed c (v + lag)) by (apply C; unfold date in *; lia).
    unfold opened, closed in *. congruence.
Qed.
