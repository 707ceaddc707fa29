(** Properties C29-C31: IMM dates and codes. *)
From Coq Require Import ZArith Bool List Lia.
From Coq Require Import ZifyBool.
Import ListNotations.
From Verif Require Import Outcome Ints Loop Date DateFacts Calendar CalendarSpec CalendarFacts AdvanceFacts B252Facts Imm ImmSpec ImmFacts.
Open Scope Z_scope.

(** * C29 *)
Theorem C29_is_imm_date : forall (d : date) (main_cycle : bool),
  is_imm_date d main_cycle = true <-> imm_day main_cycle d.
Proof. exact is_imm_date_spec. Qed.
Print Assumptions C29_is_imm_date.

(** Every month has exactly one. *)
Theorem C29_one_per_month : forall y m : Z, 1 <= m <= 12 ->
  exists d, year d = y /\ month d = m /\ is_third_wednesday d /\
  forall e, year e = y -> month e = m -> is_third_wednesday e -> e = d.
Proof.
  intros y m M. exists (wed3 (12 * y + (m - 1))).
  pose proof (wed3_day (12 * y + (m - 1))) as (MW & D & W).
  destruct (year_mi_div (wed3 (12 * y + (m - 1)))) as [A B]. rewrite MW in A, B.
  split; [rewrite A; Z.to_euclidean_division_equations; lia|]. split; [rewrite B; Z.to_euclidean_division_equations; lia|].
  split; [apply wed3_unique; now rewrite MW|].
  intros e E1 E2 T. apply wed3_unique in T. rewrite T, mi_def, E1, E2. reflexivity.
Qed.
Print Assumptions C29_one_per_month.

Example C29_witness : imm_day true (of_ymd 2024 3 20) /\ imm_day false (of_ymd 2024 4 17) /\ ~ imm_day true (of_ymd 2024 4 17).
Proof.
  rewrite <- !is_imm_date_spec. repeat split; try (vm_compute; reflexivity). vm_compute. discriminate.
Qed.

(** * C30 *)
(** A code exists exactly for IMM dates: the month's letter and the last digit
    of the year (for years from 0 on). *)
Theorem C30_code : forall d : date,
  (imm_code d = None <-> ~ is_third_wednesday d) /\
  (is_third_wednesday d -> 0 <= year d ->
   imm_code d = Some [nth (Z.to_nat (month d - 1)) month_letters 0; 48 + year d mod 10]).
Proof.
  intros d. split; [apply imm_code_none|]. intros T Y. rewrite imm_code_eq by exact T.
  rewrite Z.rem_mod_nonneg by lia. unfold small_to_string.
  pose proof (Z.mod_pos_bound (year d) 10 ltac:(lia)).
  replace (year d mod 10 <? 0) with false by lia. reflexivity.
Qed.
Print Assumptions C30_code.

(** Codes accepted: a letter of the cycle, in either case, and a digit. *)
Theorem C30_accepts : forall (s : chars) (main_cycle : bool),
  is_imm_code s main_cycle = Ok true <->
  exists a b, s = [a; b] /\ In a (accepted_letters main_cycle) /\ 48 <= b <= 57.
Proof.
  intros s mc. rewrite is_imm_code_true.
  assert (E : forall a, In a (cycle_chars mc) <-> In a (accepted_letters mc)) by (intros a; destruct mc; cbn; tauto).
  split; intros (a & b & -> & A & B); exists a, b; (split; [reflexivity|]); (split; [apply E; exact A|exact B]).
Qed.
Print Assumptions C30_accepts.

(** ... the check is not total: a single two-byte character panics. *)
Theorem C30_total_refuted :
  ~ (forall (s : chars) (main_cycle : bool), exists b, is_imm_code s main_cycle = Ok b).
Proof. intros H. destruct (H [233] false) as [b E]. vm_compute in E. discriminate E. Qed.
Print Assumptions C30_total_refuted.

Theorem C30_total_partial : forall (s : chars) (main_cycle : bool),
  ((exists b, is_imm_code s main_cycle = Ok b) <-> ~ exists c, s = [c] /\ 128 <= c < 2048).
Proof.
  intros s mc. rewrite <- (is_imm_code_panic s mc). pose proof (is_imm_code_not_Err s mc) as N.
  destruct (is_imm_code s mc) as [b|e|p].
  - split; [intros _ [p H]; discriminate H|eauto].
  - exfalso. now apply (N e).
  - split; [intros [b H]; discriminate H|]. intros H. exfalso. apply H. eauto.
Qed.
Print Assumptions C30_total_partial.

(** [IMM::date] of an upper-case code: the earliest IMM date carrying the code
    from the reference date on (reference years 1910 to 262123). *)
Theorem C30_date_earliest : forall oc depth now (ref : date) (a b : Z),
  In a month_letters -> 48 <= b <= 57 -> 1910 <= year ref -> year ref + 19 <= MAX_YEAR ->
  exists r, imm_date oc depth now [a; b] (Some ref) = Ok (Some r) /\
    ref <= r /\ imm_code r = Some [a; b] /\
    forall e, ref <= e -> imm_code e = Some [a; b] -> r <= e.
Proof.
  intros oc p now ref a b A B R1 R2. destruct (letters_are a A) as (m & M & ->).
  replace b with (48 + (b - 48)) by lia. apply imm_date_earliest; lia.
Qed.
Print Assumptions C30_date_earliest.

(** Hence the round trip: a date that is the first with its code from the
    reference date on (less than ten years away) is recovered. *)
Theorem C30_round_trip_partial : forall oc depth now (ref d : date),
  is_third_wednesday d -> ref <= d -> 1910 <= year ref -> year ref + 19 <= MAX_YEAR -> d <= ref + 3640 ->
  exists s, imm_code d = Some s /\ imm_date oc depth now s (Some ref) = Ok (Some d).
Proof.
  intros oc p now ref d T L R1 R2 TEN.
  pose proof (year_mono ref d L) as YM. pose proof (ymd_valid d) as [V _].
  pose proof (proj2 (C30_code d) T ltac:(lia)) as C. exists [letter (month d); 48 + year d mod 10]. split; [exact C|].
  destruct (imm_date_earliest oc p now ref (month d) (year d mod 10)) as (r & E & Lr & Cr & Min); try assumption.
  { Z.to_euclidean_division_equations; lia. }
  rewrite E. do 2 f_equal. specialize (Min d L C).
  destruct (is_imm_date r false) eqn:I.
  2:{ unfold imm_code in Cr. rewrite I in Cr. discriminate Cr. }
  apply is_imm_date_spec in I. destruct I as [Tr _].
  pose proof (year_mono ref r Lr) as YMr. pose proof (ymd_valid r) as [Vr _].
  rewrite (proj2 (C30_code r) Tr ltac:(lia)) in Cr.
  pose proof (f_equal (fun o => match o with Some [x; _] => x | _ => 0 end) Cr) as C1.
  pose proof (f_equal (fun o => match o with Some [_; x] => x | _ => 0 end) Cr) as C2. cbv beta iota in C1, C2.
  apply letter_inj in C1; [|exact Vr|exact V].
  assert (YY : year r = year d).
  { pose proof (year_mono r d Min) as YY. destruct (Z.eq_dec (year r) (year d)) as [|NE]; [assumption|]. exfalso.
    assert (Y10 : year r + 10 <= year d) by (Z.to_euclidean_division_equations; lia).
    (* ten years are at least 3652 days, less the spread of third Wednesdays *)
    assert (MM : mi r + 120 <= mi d) by (rewrite !mi_def; lia).
    assert (F : fom (mi r) + 3646 < fom (mi d)).
    { pose proof (fom_mi_bounds r) as Br. pose proof (fom_mi_bounds d) as Bd.
      assert (K1 : fom (12 * year r + (month r - 1)) = of_ymd (year r) (month r) 1) by (rewrite of_ymd_fom by lia; lia).
      assert (K2 : fom (12 * year d + (month d - 1)) = of_ymd (year d) (month d) 1) by (rewrite of_ymd_fom by lia; lia).
      rewrite !mi_def, K1, K2. rewrite C1.
      pose proof (fom_closed (year r) (month d) V) as G1. pose proof (fom_closed (year d) (month d) V) as G2.
      rewrite G1, G2. clear G1 G2 K1 K2 Br Bd MM.
      destruct (month d <=? 2); cbv iota zeta; Z.to_euclidean_division_equations; lia. }
    pose proof (wed3_unique r) as [W1 _]. pose proof (wed3_unique d) as [W2 _]. specialize (W1 Tr). specialize (W2 T).
    unfold wed3 in W1, W2. cbv zeta in W1, W2.
    pose proof (Z.mod_pos_bound (2 - (fom (mi r) - 1)) 7 ltac:(lia)). pose proof (Z.mod_pos_bound (2 - (fom (mi d) - 1)) 7 ltac:(lia)).
    unfold date in *. lia. }
  apply wed3_unique in Tr. apply wed3_unique in T. rewrite Tr, T, !mi_def, YY, C1. reflexivity.
Qed.
Print Assumptions C30_round_trip_partial.

(** The round trip fails for references up to 1909 and codes ending in 0. *)
Theorem C30_round_trip_refuted :
  ~ (forall oc depth now (ref d : date), is_third_wednesday d -> 0 <= year ref -> ref <= d -> d <= ref + 3640 ->
     exists s, imm_code d = Some s /\ imm_date oc depth now s (Some ref) = Ok (Some d)).
Proof.
  intros H. destruct (H true xH 0 (of_ymd 1900 1 1) (of_ymd 1900 3 21)) as (s & C & E).
  - apply third_wed_iff. split; [reflexivity|vm_compute; split; discriminate].
  - vm_compute. discriminate.
  - vm_compute. discriminate.
  - vm_compute. discriminate.
  - vm_compute in C. injection C as <-. vm_compute in E. discriminate E.
Qed.
Print Assumptions C30_round_trip_refuted.

(** Lower-case codes pass the check and then panic. *)
Theorem C30_lower_case : forall oc depth now ref (a b : Z),
  is_imm_code [a; b] false = Ok true -> ~ In a month_letters ->
  imm_date oc depth now [a; b] ref = Panic PUnwrap.
Proof.
  intros oc p now ref a b C N. apply is_imm_code_true in C. destruct C as (a' & b' & E & A & B).
  injection E as <- <-. now apply (imm_date_lower oc p now [a; b] ref a b).
Qed.
Print Assumptions C30_lower_case.

(** Strings that are not codes have no date. *)
Theorem C30_not_a_code : forall oc depth now ref (s : chars),
  is_imm_code s false = Ok false -> imm_date oc depth now s ref = Ok None.
Proof. intros oc p now ref s H. unfold imm_date. rewrite H. reflexivity. Qed.
Print Assumptions C30_not_a_code.

Example C30_witness :
  let ref := of_ymd 2023 10 29 in let d := of_ymd 2025 9 17 in
  is_third_wednesday d /\ ref <= d /\ 1910 <= year ref /\ year ref + 19 <= MAX_YEAR /\ d <= ref + 3640 /\
  imm_code d = Some [85; 53] /\ imm_date true xH 0 [85; 53] (Some ref) = Ok (Some d) /\
  is_imm_code [104; 53] false = Ok true /\ ~ In 104 month_letters.
Proof.
  cbv zeta. split; [apply third_wed_iff; split; [reflexivity|vm_compute; split; discriminate]|].
  split; [vm_compute; discriminate|]. split; [vm_compute; discriminate|]. split; [vm_compute; discriminate|].
  split; [vm_compute; discriminate|]. split; [reflexivity|]. split; [vm_compute; reflexivity|].
  split; [reflexivity|]. cbn. lia.
Qed.

(** * C31 *)
(** From the third Wednesday of a month on, next_date never returns: it calls
    itself for ever on the 22nd (stack overflow), and panics in December. *)
Theorem C31_next_date_refuted :
  ~ (forall (d : date) (main_cycle : bool), in_range d ->
     exists oc depth r, next_date oc depth d main_cycle = Ok r /\ next_imm main_cycle d r).
Proof.
  intros H.
  assert (R : in_range (of_ymd 2023 3 31)) by (rewrite in_range_val; vm_compute; split; discriminate).
  destruct (H (of_ymd 2023 3 31) false R) as (oc & p & r & E & _).
  rewrite next_date_late in E; [discriminate E|exact R|vm_compute; discriminate|reflexivity].
Qed.
Print Assumptions C31_next_date_refuted.

(** Before the third Wednesday of the month: that Wednesday is returned, which
    is the next date of the serial cycle. *)
Theorem C31_early_partial : forall oc depth (d : date) (main_cycle : bool) t, in_range d ->
  is_third_wednesday t -> year t = year d -> month t = month d -> d < t ->
  next_date oc depth d main_cycle = Ok t /\ next_imm false d t.
Proof.
  intros oc p d mc t R T Y M L. apply wed3_unique in T.
  assert (E : mi t = mi d) by (rewrite !mi_def; lia). rewrite E in T. subst t.
  split; [now apply next_date_early|now apply next_imm_early].
Qed.
Print Assumptions C31_early_partial.

(** With [main_cycle] that is the wrong date unless the month is a quarter month. *)
Theorem C31_main_cycle_partial : forall oc depth (d : date) t, in_range d ->
  is_third_wednesday t -> year t = year d -> month t = month d -> d < t ->
  next_date oc depth d true = Ok t /\
  (next_imm true d t <-> month d = 3 \/ month d = 6 \/ month d = 9 \/ month d = 12).
Proof.
  intros oc p d t R T Y M L. destruct (C31_early_partial oc p d true t R T Y M L) as [E [A [B C]]].
  split; [exact E|]. split.
  - intros (_ & (_ & Q) & _). rewrite <- M. now apply Q.
  - intros Q. split; [exact A|]. split; [split; [exact T|intros _; now rewrite M]|].
    intros x Hx [Tx _]. apply (C x Hx). split; [exact Tx|discriminate].
Qed.
Print Assumptions C31_main_cycle_partial.

(** On or after the third Wednesday: no stack is deep enough, except in
    December, where the month becomes 0 and the unwrap panics. *)
Theorem C31_late : forall oc (d : date) (main_cycle : bool) t, in_range d ->
  is_third_wednesday t -> year t = year d -> month t = month d -> t <= d ->
  (month d <> 12 -> forall depth, next_date oc depth d main_cycle = Panic PStack) /\
  (month d = 12 -> forall depth, (1 < depth)%positive -> next_date oc depth d main_cycle = Panic PUnwrap).
Proof.
  intros oc d mc t R T Y M L. apply wed3_unique in T.
  assert (E : mi t = mi d) by (rewrite !mi_def; lia). rewrite E in T. subst t.
  pose proof (ymd_valid d) as [V _]. split.
  - intros N p. apply next_date_late; [assumption|assumption|lia].
  - intros N p P. now apply next_date_december.
Qed.
Print Assumptions C31_late.

Example C31_witness :
  let d := of_ymd 2023 4 3 in let t := of_ymd 2023 4 19 in
  in_range d /\ is_third_wednesday t /\ year t = year d /\ month t = month d /\ d < t /\
  next_date true 5 d true = Ok t /\ next_date true 20 t false = Panic PStack /\
  next_date true 5 (of_ymd 2023 12 25) false = Panic PUnwrap.
Proof.
  cbv zeta. rewrite in_range_val. split; [vm_compute; split; discriminate|].
  split; [apply third_wed_iff; split; [reflexivity|vm_compute; split; discriminate]|].
  repeat split; vm_compute; reflexivity.
Qed.
