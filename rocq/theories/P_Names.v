(** Property C23: names and codes. *)
From Coq Require Import ZArith Ascii String List Lia Bool.
Import ListNotations.
From Verif Require Import Outcome Date Calendar CalendarSpec Names.
Open Scope string_scope.

Theorem C23_convention_round_trip : forall b : convention,
  convention_from_code (convention_name b) = Some b.
Proof. intros []; reflexivity. Qed.
Print Assumptions C23_convention_round_trip.

(** [from_code] accepts the names and the names with blanks and hyphens taken
    out, and nothing else. *)
Definition squeeze (s : string) : string :=
  string_of_list_ascii (filter (fun c => negb (Ascii.eqb c " "%char || Ascii.eqb c "-"%char)) (list_ascii_of_string s)).

Theorem C23_convention_codes : forall (s : string) (b : convention),
  convention_from_code s = Some b <-> s = convention_name b \/ s = squeeze (convention_name b).
Proof.
  intros s b. unfold convention_from_code. split.
  - repeat match goal with
    | |- context [?x =? ?y] => destruct (String.eqb_spec x y) as [->|?]; cbn [orb]
    end; intros E; try discriminate E; injection E as <-; cbv; tauto.
  - intros [-> | ->]; destruct b; reflexivity.
Qed.
Print Assumptions C23_convention_codes.

Example C23_convention_witness :
  convention_from_code "Half-Month Modified Following" = Some HalfMonthModifiedFollowing /\
  convention_from_code "HalfMonthModifiedFollowing" = Some HalfMonthModifiedFollowing /\
  convention_from_code "RANDOM" = None.
Proof. repeat split; reflexivity. Qed.

(** The frequency half is false: "Once" is read as NoFrequency. *)
Theorem C23_frequency_refuted :
  ~ (forall f : frequency, frequency_from_code (frequency_name f) = Some f).
Proof. intros H. specialize (H Once). discriminate H. Qed.
Print Assumptions C23_frequency_refuted.

(** It fails exactly for NoFrequency, Once and OtherFrequency. *)
Theorem C23_frequency_partial : forall f : frequency,
  frequency_from_code (frequency_name f) = Some f <->
  f <> NoFrequency /\ f <> Once /\ f <> OtherFrequency.
Proof. intros []; cbn; split; intros H; try discriminate H; try (repeat split; discriminate); try reflexivity; destruct H as (A & B & C); exfalso; auto. Qed.
Print Assumptions C23_frequency_partial.

(** The accepted strings: the names of the eleven frequencies between Once and
    Daily, with or without their hyphens; "Once" means NoFrequency. *)
Theorem C23_frequency_codes : forall (s : string) (g : frequency),
  frequency_from_code s = Some g <->
  (s = "Once" /\ g = NoFrequency) \/
  (g <> NoFrequency /\ g <> Once /\ g <> OtherFrequency /\
   (s = frequency_name g \/ s = squeeze (frequency_name g))).
Proof.
  intros s g. unfold frequency_from_code. split.
  - repeat match goal with
    | |- context [?x =? ?y] => destruct (String.eqb_spec x y) as [->|?]; cbn [orb]
    end; intros E; try discriminate E; injection E as <-;
    try (left; split; reflexivity); right; (split; [discriminate|]); (split; [discriminate|]); (split; [discriminate|]); cbv; tauto.
  - intros [[-> ->] | (A & B & C & [-> | ->])]; [reflexivity| |]; destruct g; try reflexivity; exfalso; auto.
Qed.
Print Assumptions C23_frequency_codes.

Example C23_frequency_witness :
  frequency_from_code "Every-Fourth-Week" = Some EveryFourthWeek /\
  frequency_from_code (frequency_name OtherFrequency) = None /\
  frequency_from_code (frequency_name NoFrequency) = None.
Proof. repeat split; reflexivity. Qed.

(** A frequency of [n] events a year has a period that fits [n] times into a
    year (of 12 months, 52 weeks or 365 days). *)
Theorem C23_frequency_period : forall (f : frequency) (p : period),
  f <> NoFrequency -> frequency_period f = Some p ->
  match p with
  | Years n => (frequency_repr f * n = 1)%Z
  | Months n => (frequency_repr f * n = 12)%Z
  | Weeks n => (frequency_repr f * n = 52)%Z
  | Days n => (frequency_repr f * n = 365)%Z
  | _ => False
  end.
Proof. intros [] p N E; cbn in E; try discriminate E; injection E as <-; try reflexivity; exfalso; auto. Qed.
Print Assumptions C23_frequency_period.

Example C23_period_witness : frequency_period Biweekly = Some (Weeks 2).
Proof. reflexivity. Qed.
