(** Facts about IMM dates and codes. *)
From Coq Require Import ZArith Bool List Lia.
From Coq Require Import ZifyBool.
Import ListNotations.
From Verif Require Import Outcome Ints Loop Date DateFacts Calendar CalendarSpec CalendarFacts AdvanceFacts B252Facts Imm ImmSpec.
Open Scope Z_scope.
Ltac Zify.zify_post_hook ::= Z.div_mod_to_equations.

Lemma wed_mod d : weekday_of d = Wed <-> (d - 1) mod 7 = 2.
Proof.
  split; intros H.
  - rewrite <- weekday_num_of, H. reflexivity.
  - unfold weekday_of. rewrite H. reflexivity.
Qed.

Lemma wed_eqb d : weekday_eqb (weekday_of d) Wed = ((d - 1) mod 7 =? 2).
Proof.
  destruct (Z.eqb_spec ((d - 1) mod 7) 2) as [E|E].
  - apply weekday_eqb_eq, wed_mod, E.
  - destruct (weekday_eqb (weekday_of d) Wed) eqn:F; [|reflexivity].
    apply weekday_eqb_eq, wed_mod in F. contradiction.
Qed.

Lemma wednesdays_before d k : (d - 1) mod 7 = 2 -> 0 <= k ->
  Z.of_nat (length (filter (fun x => weekday_eqb (weekday_of x) Wed) (days_of (d - k) d))) = k / 7.
Proof.
  intros W K. pattern k. apply natlike_ind; [| |exact K].
  - rewrite days_of_nil by lia. reflexivity.
  - clear k K. intros k K IH. rewrite days_of_cons by (unfold date in *; lia).
    replace (d - Z.succ k + 1) with (d - k) by lia. cbn [filter].
    rewrite wed_eqb. destruct (Z.eqb_spec ((d - Z.succ k - 1) mod 7) 2) as [E|E]; cbn [length]; unfold date in *; lia.
Qed.

Lemma third_wed_iff d : is_third_wednesday d <-> weekday_of d = Wed /\ 15 <= day d <= 21.
Proof.
  unfold is_third_wednesday. pose proof (ymd_valid d) as [V1 V2]. split; intros [W H]; (split; [exact W|]).
  - apply wed_mod in W. pose proof (wednesdays_before d (day d - 1) W ltac:(lia)) as E.
    rewrite of_ymd_fom in H by lia. replace (12 * year d + (month d - 1)) with (mi d) in H by (rewrite mi_def; lia).
    rewrite fom_mi in H. replace (d - (day d - 1) + (1 - 1)) with (d - (day d - 1)) in H by lia.
    rewrite H in E. lia.
  - apply wed_mod in W. pose proof (wednesdays_before d (day d - 1) W ltac:(lia)) as E.
    rewrite of_ymd_fom by lia. replace (12 * year d + (month d - 1)) with (mi d) by (rewrite mi_def; lia).
    rewrite fom_mi. replace (d - (day d - 1) + (1 - 1)) with (d - (day d - 1)) by lia.
    apply Nat2Z.inj. rewrite E. lia.
Qed.

Lemma is_imm_date_spec d mc : is_imm_date d mc = true <-> imm_day mc d.
Proof.
  unfold is_imm_date, imm_day. rewrite third_wed_iff.
  rewrite <- (weekday_eqb_eq (weekday_of d) Wed).
  destruct (weekday_eqb (weekday_of d) Wed); cbn [negb]; [|split; [discriminate|intros [[H _] _]; discriminate]].
  destruct ((15 <=? day d) && (day d <=? 21)) eqn:E; cbn [negb]; [|split; [discriminate|intros [[_ H] _]; lia]].
  destruct mc; cbn [negb]; [|split; [intros _; split; [lia|discriminate]|reflexivity]].
  rewrite !orb_true_iff, !Z.eqb_eq. split.
  - intros H. split; [split; [reflexivity|lia]|]. intros _. tauto.
  - intros [_ H]. specialize (H eq_refl). tauto.
Qed.

(** The third Wednesday of a month. *)
Definition wed3 (k : Z) : date := let f := fom k in f + 14 + (2 - (f - 1)) mod 7.

Lemma wed3_day k : mi (wed3 k) = k /\ 15 <= day (wed3 k) <= 21 /\ weekday_of (wed3 k) = Wed.
Proof.
  pose proof (mil_bounds k) as B. unfold wed3. cbv zeta.
  assert (M : mi (fom k + 14 + (2 - (fom k - 1)) mod 7) = k).
  { rewrite <- Z.add_assoc. apply mi_fom. lia. }
  split; [exact M|]. split.
  - rewrite day_fom, M. unfold date in *. lia.
  - apply wed_mod. generalize (fom k). intros f. lia.
Qed.

Lemma wed3_unique d : is_third_wednesday d <-> d = wed3 (mi d).
Proof.
  rewrite third_wed_iff. split.
  - intros [W D]. apply wed_mod in W. rewrite day_fom in D. unfold wed3. cbv zeta.
    revert W D. generalize (fom (mi d)). unfold date in *. intros f. lia.
  - intros ->. pose proof (wed3_day (mi d)) as (M & D & W). split; assumption.
Qed.

Lemma from_ymd_fom y m dd : MIN_YEAR <= y <= MAX_YEAR -> 1 <= m <= 12 -> 1 <= dd <= 28 ->
  from_ymd_opt y m dd = Some (fom (12 * y + (m - 1)) + (dd - 1)).
Proof.
  intros Y M D. unfold from_ymd_opt. pose proof (mlen_bounds y m).
  replace (valid_ymdb y m dd) with true by (unfold valid_ymdb; lia).
  replace (MIN_YEAR <=? y) with true by lia. replace (y <=? MAX_YEAR) with true by lia.
  rewrite of_ymd_fom by lia. reflexivity.
Qed.

Lemma third_wednesday_ok y m : MIN_YEAR <= y <= MAX_YEAR -> 1 <= m <= 12 ->
  third_wednesday m y = Ok (wed3 (12 * y + (m - 1))).
Proof.
  intros Y M. unfold third_wednesday. rewrite from_ymd_fom by lia. cbn [ounwrap obind].
  rewrite Z.sub_diag, Z.add_0_r, weekday_num_of. set (f := fom (12 * y + (m - 1))).
  destruct (Z.leb_spec ((f - 1) mod 7) 2); rewrite from_ymd_fom by lia; cbn [ounwrap]; f_equal;
    fold f; unfold wed3; cbv zeta; fold f; unfold date in *; generalize dependent f; intros; lia.
Qed.

Lemma year_mi_div d : year d = mi d / 12 /\ month d = mi d mod 12 + 1.
Proof. pose proof (ymd_valid d) as [V _]. rewrite mi_def. lia. Qed.

(** One call of next_date, completely. *)
Lemma next_step_early oc mc d : in_range d -> d < wed3 (mi d) -> next_step oc mc d = inr (Ok (wed3 (mi d))).
Proof.
  intros R L. pose proof (in_range_year d R) as Y. pose proof (ymd_valid d) as [V1 V2].
  pose proof (wed3_day (mi d)) as (M & D & W).
  assert (DD : day d <= 20) by (rewrite !day_fom in *; rewrite M in D; unfold date in *; lia).
  unfold next_step. cbv zeta.
  assert (E : (if negb ((if mc then 3 else 1) - month d mod (if mc then 3 else 1) =? (if mc then 3 else 1)) || (21 <? day d)
     then if 12 <? (if mc then 3 else 1) - month d mod (if mc then 3 else 1) + month d
          then if month d - 12 <? 0
               then if oc then Panic PArith else Ok ((month d - 12) mod 2 ^ 32, year d + 1)
               else Ok (month d - 12, year d + 1)
          else Ok (month d, year d)
     else Ok (month d, year d)) = Ok (month d, year d)).
  { destruct (negb _ || _) eqn:C; [|reflexivity].
    destruct (12 <? _) eqn:F; [|reflexivity]. exfalso. destruct mc; lia. }
  rewrite E. rewrite third_wednesday_ok by lia. rewrite <- mi_def.
  replace (wed3 (mi d) <=? d) with false by (unfold date in *; lia). reflexivity.
Qed.

Lemma next_step_late oc mc d : in_range d -> wed3 (mi d) <= d -> month d < 12 ->
  next_step oc mc d = inl (fom (mi d) + 21).
Proof.
  intros R L N. pose proof (in_range_year d R) as Y. pose proof (ymd_valid d) as [V1 V2].
  unfold next_step. cbv zeta.
  assert (E : (if negb ((if mc then 3 else 1) - month d mod (if mc then 3 else 1) =? (if mc then 3 else 1)) || (21 <? day d)
     then if 12 <? (if mc then 3 else 1) - month d mod (if mc then 3 else 1) + month d
          then if month d - 12 <? 0
               then if oc then Panic PArith else Ok ((month d - 12) mod 2 ^ 32, year d + 1)
               else Ok (month d - 12, year d + 1)
          else Ok (month d, year d)
     else Ok (month d, year d)) = Ok (month d, year d)).
  { destruct (negb _ || _) eqn:C; [|reflexivity].
    destruct (12 <? _) eqn:F; [|reflexivity]. exfalso. destruct mc; lia. }
  rewrite E. rewrite third_wednesday_ok by lia. rewrite <- mi_def.
  replace (wed3 (mi d) <=? d) with true by (unfold date in *; lia).
  rewrite from_ymd_fom by lia. rewrite <- mi_def. reflexivity.
Qed.

Lemma next_step_december oc mc d : in_range d -> wed3 (mi d) <= d -> month d = 12 ->
  next_step oc mc d = if 21 <? day d then inr (Panic PUnwrap) else inl (fom (mi d) + 21).
Proof.
  intros R L N. pose proof (in_range_year d R) as Y. pose proof (ymd_valid d) as [V1 V2].
  unfold next_step. cbv zeta.
  destruct (21 <? day d) eqn:D.
  - rewrite orb_true_r. rewrite N. replace (12 <? _) with true by (destruct mc; reflexivity).
    cbn [Z.sub Z.ltb Z.compare Z.add Z.opp Z.pos_sub].
    change (12 - 12) with 0. cbn [Z.ltb Z.compare]. unfold third_wednesday, from_ymd_opt, valid_ymdb. reflexivity.
  - rewrite orb_false_r. replace (negb _) with false by (rewrite N; destruct mc; reflexivity).
    rewrite third_wednesday_ok by lia. rewrite <- mi_def.
    replace (wed3 (mi d) <=? d) with true by (unfold date in *; lia).
    rewrite from_ymd_fom by lia. rewrite <- mi_def. reflexivity.
Qed.

Lemma late22 d : in_range d -> month d < 12 \/ wed3 (mi d) <= d ->
  let e := fom (mi d) + 21 in mi e = mi d /\ day e = 22 /\ wed3 (mi e) <= e /\ in_range e /\ month e = month d.
Proof.
  intros R L e. unfold e. pose proof (mil_bounds (mi d)) as B.
  pose proof (mi_fom (mi d) 21 ltac:(lia)) as M. pose proof (wed3_day (mi d)) as (MW & D & W).
  pose proof (year_mi_div d) as [Yd Md]. pose proof (year_mi_div (fom (mi d) + 21)) as [Ye Me]. rewrite M in Ye, Me.
  split; [exact M|]. split; [rewrite day_fom, M; unfold date in *; lia|].
  rewrite M. split; [rewrite day_fom, MW in D; unfold date in *; lia|].
  split; [|congruence]. apply year_in_range. rewrite Ye, <- Yd. apply in_range_year, R.
Qed.

(** From the third Wednesday of any month but December the recursion repeats
    the same call for ever. *)
Lemma next_diverges oc mc d n : in_range d -> wed3 (mi d) <= d -> month d < 12 ->
  exists d', iter_loop n (next_step oc mc) d = inl d'.
Proof.
  revert d. induction n as [|n IH]; intros d R L N; cbn [iter_loop]; [eauto|].
  rewrite next_step_late by assumption.
  destruct (late22 d R (or_introl N)) as (M & D & W & R' & N'). apply IH; [exact R'|exact W|congruence].
Qed.

Lemma next_date_early oc p mc d : in_range d -> d < wed3 (mi d) -> next_date oc p d mc = Ok (wed3 (mi d)).
Proof.
  intros R L. unfold next_date.
  pose proof (loop_done p (next_step oc mc) d _ (next_step_early oc mc d R L)) as E.
  exact (f_equal (fun x => match x with inr o => o | inl _ => Panic PStack end) E).
Qed.

Lemma next_date_late oc p mc d : in_range d -> wed3 (mi d) <= d -> month d < 12 -> next_date oc p d mc = Panic PStack.
Proof.
  intros R L N. unfold next_date. destruct (next_diverges oc mc d (Pos.to_nat p) R L N) as [d' E].
  rewrite <- loop_iter in E. exact (f_equal (fun x => match x with inr o => o | inl _ => Panic PStack end) E).
Qed.

Lemma next_date_december oc p mc d : in_range d -> wed3 (mi d) <= d -> month d = 12 -> (1 < p)%positive ->
  next_date oc p d mc = Panic PUnwrap.
Proof.
  intros R L N P. unfold next_date.
  assert (E : loop p (next_step oc mc) d = inr (Panic PUnwrap)).
  { rewrite loop_iter. destruct (Pos.to_nat p) as [|[|k]] eqn:Q; [lia|lia|]. cbn [iter_loop].
    rewrite next_step_december by assumption. destruct (21 <? day d); [reflexivity|].
    destruct (late22 d R (or_intror L)) as (M & D & W & R' & N').
    rewrite next_step_december by congruence. rewrite D. reflexivity. }
  exact (f_equal (fun x => match x with inr o => o | inl _ => Panic PStack end) E).
Qed.

Lemma next_imm_early d : d < wed3 (mi d) -> next_imm false d (wed3 (mi d)).
Proof.
  intros L. pose proof (wed3_day (mi d)) as (M & D & W). split; [exact L|]. split.
  - split; [|discriminate]. apply wed3_unique. now rewrite M.
  - intros x Hx [T _]. apply wed3_unique in T.
    pose proof (mi_mono d x ltac:(lia)) as A. pose proof (mi_mono x (wed3 (mi d)) ltac:(lia)) as B. rewrite M in B.
    assert (mi x = mi d) by lia. rewrite H in T. lia.
Qed.

(** * Codes *)
Lemma has_char_In s c : has_char s c = true <-> In c s.
Proof.
  unfold has_char. rewrite existsb_exists. split.
  - intros (x & I & E). apply Z.eqb_eq in E. now subst.
  - intros I. exists c. split; [exact I|apply Z.eqb_refl].
Qed.

Lemma utf8_len_pos c : 1 <= utf8_len c.
Proof. unfold utf8_len. repeat match goal with |- context [if ?b then _ else _] => destruct b end; lia. Qed.
Lemma byte_len_nonneg s : 0 <= byte_len s.
Proof.
  unfold byte_len. induction s as [|c s IH]; cbn [map fold_right]; [lia|]. pose proof (utf8_len_pos c). lia.
Qed.
Lemma byte_len_cons c s : byte_len (c :: s) = utf8_len c + byte_len s.
Proof. reflexivity. Qed.

(** Two bytes: one two-byte character or two ASCII characters. *)
Lemma byte_len_2 s : byte_len s = 2 <->
  (exists c, s = [c] /\ 128 <= c < 2048) \/ (exists a b, s = [a; b] /\ a < 128 /\ b < 128).
Proof.
  split.
  - destruct s as [|a [|b [|c s]]]; rewrite ?byte_len_cons; intros H.
    + discriminate H.
    + left. exists a. split; [reflexivity|]. revert H. change (byte_len []) with 0. unfold utf8_len.
      destruct (Z.ltb_spec a 128), (Z.ltb_spec a 2048), (Z.ltb_spec a 65536); lia.
    + right. exists a, b. split; [reflexivity|]. pose proof (utf8_len_pos a). pose proof (utf8_len_pos b).
      change (byte_len []) with 0 in H. assert (A : utf8_len a = 1) by lia. assert (B : utf8_len b = 1) by lia.
      revert A B. unfold utf8_len.
      destruct (Z.ltb_spec a 128), (Z.ltb_spec a 2048), (Z.ltb_spec a 65536), (Z.ltb_spec b 128), (Z.ltb_spec b 2048), (Z.ltb_spec b 65536); lia.
    + exfalso. pose proof (utf8_len_pos a). pose proof (utf8_len_pos b). pose proof (utf8_len_pos c).
      pose proof (byte_len_nonneg s). lia.
  - intros [(c & -> & H)|(a & b & -> & H)]; rewrite ?byte_len_cons; change (byte_len []) with 0; unfold utf8_len.
    + destruct (Z.ltb_spec c 128), (Z.ltb_spec c 2048); lia.
    + destruct (Z.ltb_spec a 128), (Z.ltb_spec b 128); lia.
Qed.

Definition cycle_chars (mc : bool) : chars := if mc then main_chars else serial_chars.

Lemma cycle_ascii mc c : In c (cycle_chars mc) -> 0 <= c < 128.
Proof. destruct mc; cbn; intros H; repeat (destruct H as [<-|H]; [lia|]); contradiction. Qed.
Lemma digit_ascii c : In c digit_chars <-> 48 <= c <= 57.
Proof.
  split; [cbn; lia|]. intros H.
  assert (K : c = 48 \/ c = 49 \/ c = 50 \/ c = 51 \/ c = 52 \/ c = 53 \/ c = 54 \/ c = 55 \/ c = 56 \/ c = 57) by lia.
  cbn. intuition.
Qed.

Lemma is_imm_code_true s mc : is_imm_code s mc = Ok true <->
  exists a b, s = [a; b] /\ In a (cycle_chars mc) /\ 48 <= b <= 57.
Proof.
  unfold is_imm_code. fold (cycle_chars mc). split.
  - destruct (Z.eqb_spec (byte_len s) 2) as [L|L]; cbn [negb]; [|discriminate].
    apply byte_len_2 in L. destruct L as [(c & -> & _)|(a & b & -> & _)]; cbn [nth_error ounwrap obind]; [discriminate|].
    destruct (has_char digit_chars b) eqn:D; cbn [negb]; [|discriminate].
    destruct (has_char (cycle_chars mc) a) eqn:C; cbn [negb]; [|discriminate]. intros _.
    exists a, b. split; [reflexivity|]. split; [now apply has_char_In|]. now apply digit_ascii, has_char_In.
  - intros (a & b & -> & Ha & Hb). pose proof (cycle_ascii mc a Ha) as A.
    replace (byte_len [a; b] =? 2) with true.
    2:{ symmetry. apply Z.eqb_eq, byte_len_2. right. exists a, b. split; [reflexivity|lia]. }
    cbn [negb nth_error ounwrap obind].
    apply digit_ascii, has_char_In in Hb. apply has_char_In in Ha. rewrite Hb, Ha. reflexivity.
Qed.

Lemma is_imm_code_panic s mc : (exists p, is_imm_code s mc = Panic p) <-> exists c, s = [c] /\ 128 <= c < 2048.
Proof.
  unfold is_imm_code. split.
  - intros [p H]. destruct (Z.eqb_spec (byte_len s) 2) as [L|L]; cbn [negb] in H; [|discriminate].
    apply byte_len_2 in L. destruct L as [(c & -> & Hc)|(a & b & -> & _)]; [eauto|].
    cbn [nth_error ounwrap obind] in H. destruct (negb _) in H; [discriminate|]. destruct (negb _) in H; discriminate.
  - intros (c & -> & H). exists PUnwrap.
    replace (byte_len [c] =? 2) with true by (symmetry; apply Z.eqb_eq, byte_len_2; left; exists c; auto). reflexivity.
Qed.

Lemma is_imm_code_not_Err s mc e : is_imm_code s mc <> Err e.
Proof.
  unfold is_imm_code. destruct (negb _); [discriminate|]. destruct (nth_error s 1); cbn [ounwrap obind]; [|discriminate].
  destruct (negb _); [discriminate|]. destruct (nth_error s 0); cbn [ounwrap obind]; [|discriminate]. destruct (negb _); discriminate.
Qed.

Definition letter (m : Z) : Z := nth (Z.to_nat (m - 1)) imm_letters 0.

Ltac month_cases m H :=
  let K := fresh in
  assert (K : m = 1 \/ m = 2 \/ m = 3 \/ m = 4 \/ m = 5 \/ m = 6 \/ m = 7 \/ m = 8 \/ m = 9 \/ m = 10 \/ m = 11 \/ m = 12) by lia;
  destruct K as [->|[->|[->|[->|[->|[->|[->|[->|[->|[->|[->| ->]]]]]]]]]]].

Lemma index_letter m : 1 <= m <= 12 -> index_of (letter m) imm_letters 1 = Some m.
Proof. intros H. month_cases m H; reflexivity. Qed.
Lemma letter_cycle m : 1 <= m <= 12 -> In (letter m) (cycle_chars false).
Proof. intros H. apply has_char_In. month_cases m H; reflexivity. Qed.
Lemma letter_In m : 1 <= m <= 12 -> In (letter m) imm_letters.
Proof. intros H. apply has_char_In. month_cases m H; reflexivity. Qed.
Lemma letter_inj m m' : 1 <= m <= 12 -> 1 <= m' <= 12 -> letter m = letter m' -> m = m'.
Proof. intros H H' E. pose proof (index_letter m H) as A. rewrite E, index_letter in A by assumption. congruence. Qed.
Lemma letters_are c : In c imm_letters -> exists m, 1 <= m <= 12 /\ c = letter m.
Proof.
  intros H. assert (E : exists m, In m [1;2;3;4;5;6;7;8;9;10;11;12] /\ c = letter m).
  { cbn in H. repeat (destruct H as [<-|H];
      [first [exists 1; split; [cbn; tauto|reflexivity] | exists 2; split; [cbn; tauto|reflexivity] | exists 3; split; [cbn; tauto|reflexivity]
             | exists 4; split; [cbn; tauto|reflexivity] | exists 5; split; [cbn; tauto|reflexivity] | exists 6; split; [cbn; tauto|reflexivity]
             | exists 7; split; [cbn; tauto|reflexivity] | exists 8; split; [cbn; tauto|reflexivity] | exists 9; split; [cbn; tauto|reflexivity]
             | exists 10; split; [cbn; tauto|reflexivity] | exists 11; split; [cbn; tauto|reflexivity] | exists 12; split; [cbn; tauto|reflexivity]]|]).
    contradiction. }
  destruct E as (m & I & E). exists m. split; [|exact E]. cbn in I. lia.
Qed.

Lemma imm_code_eq d : is_third_wednesday d ->
  imm_code d = Some (letter (month d) :: small_to_string (Z.rem (year d) 10)).
Proof.
  intros T. unfold imm_code. replace (is_imm_date d false) with true; [reflexivity|].
  symmetry. apply is_imm_date_spec. split; [exact T|discriminate].
Qed.

Lemma imm_code_none d : imm_code d = None <-> ~ is_third_wednesday d.
Proof.
  unfold imm_code. destruct (is_imm_date d false) eqn:E; cbn [negb].
  - apply is_imm_date_spec in E. destruct E as [T _]. split; [discriminate|intros N; contradiction].
  - split; [|reflexivity]. intros _ T. assert (X : is_imm_date d false = true) by (apply is_imm_date_spec; split; [exact T|discriminate]).
    congruence.
Qed.

(** The year the code's digit denotes, before the look-ahead. *)
Definition code_year (ref : date) (y : Z) : Z :=
  (if (y =? 0) && (year ref <=? 1909) then y + 10 else y) + (year ref - Z.rem (year ref) 10).

Lemma imm_date_eq oc p now ref m y : 1 <= m <= 12 -> 0 <= y <= 9 -> MIN_YEAR <= code_year ref y <= MAX_YEAR ->
  imm_date oc p now [letter m; 48 + y] (Some ref) =
  let r := wed3 (12 * code_year ref y + (m - 1)) in
  if r <? ref then
    if code_year ref y + 10 <=? MAX_YEAR then Ok (Some (wed3 (12 * (code_year ref y + 10) + (m - 1)))) else Panic PUnwrap
  else Ok (Some r).
Proof.
  intros M Y B. unfold imm_date.
  assert (C : is_imm_code [letter m; 48 + y] false = Ok true).
  { apply is_imm_code_true. exists (letter m), (48 + y). split; [reflexivity|]. split; [now apply letter_cycle|lia]. }
  rewrite C. cbn [obind negb nth_error ounwrap]. rewrite index_letter by exact M. cbn [ounwrap obind].
  replace (48 + y - 48) with y by lia. fold (code_year ref y). cbv zeta.
  assert (N : forall Y', MIN_YEAR <= Y' <= MAX_YEAR -> exists f, from_ymd_opt Y' m 1 = Some f /\ next_date oc p f false = Ok (wed3 (12 * Y' + (m - 1)))).
  { intros Y' HY. exists (fom (12 * Y' + (m - 1))). split; [rewrite from_ymd_fom by lia; f_equal; unfold date in *; lia|].
    pose proof (wed3_day (12 * Y' + (m - 1))) as (MW & D & W).
    rewrite <- (mi_fom0 (12 * Y' + (m - 1))) at 2. apply next_date_early.
    - apply year_in_range. rewrite (proj1 (year_mi_div _)), mi_fom0. change MIN_YEAR with (-262143) in *. change MAX_YEAR with 262142 in *. lia.
    - rewrite mi_fom0. rewrite day_fom, MW in D. unfold date in *. lia. }
  destruct (N _ B) as (f & -> & E). cbn [ounwrap obind]. rewrite E. cbn [obind].
  destruct (Z.ltb_spec (wed3 (12 * code_year ref y + (m - 1))) ref) as [L|L]; [|reflexivity].
  destruct (Z.leb_spec (code_year ref y + 10) MAX_YEAR) as [Q|Q].
  - destruct (N (code_year ref y + 10) ltac:(lia)) as (f' & -> & E'). cbn [ounwrap obind]. rewrite E'. reflexivity.
  - unfold from_ymd_opt. replace (code_year ref y + 10 <=? MAX_YEAR) with false by lia. rewrite andb_false_r. reflexivity.
Qed.

Lemma wed3_lt_year k ref : k / 12 < year ref -> wed3 k < ref.
Proof.
  intros H. pose proof (wed3_day k) as (M & _ & _).
  destruct (Z_lt_ge_dec (wed3 k) ref) as [|G]; [assumption|].
  pose proof (year_mono ref (wed3 k) ltac:(lia)) as Y. rewrite (proj1 (year_mi_div (wed3 k))), M in Y. lia.
Qed.
Lemma wed3_gt_year k ref : year ref < k / 12 -> ref < wed3 k.
Proof.
  intros H. pose proof (wed3_day k) as (M & _ & _).
  destruct (Z_lt_ge_dec ref (wed3 k)) as [|G]; [assumption|].
  pose proof (year_mono (wed3 k) ref ltac:(lia)) as Y. rewrite (proj1 (year_mi_div (wed3 k))), M in Y. lia.
Qed.

(** The date of a code is the earliest IMM date with that code from the
    reference date on. *)
Lemma imm_date_earliest oc p now ref m y : 1 <= m <= 12 -> 0 <= y <= 9 -> 1910 <= year ref -> year ref + 19 <= MAX_YEAR ->
  exists r, imm_date oc p now [letter m; 48 + y] (Some ref) = Ok (Some r) /\
    ref <= r /\ imm_code r = Some [letter m; 48 + y] /\
    forall e, ref <= e -> imm_code e = Some [letter m; 48 + y] -> r <= e.
Proof.
  intros M Y R1 R2. set (Y0 := code_year ref y).
  assert (EY : Y0 = y + (year ref - year ref mod 10)).
  { unfold Y0, code_year. replace (year ref <=? 1909) with false by lia. rewrite andb_false_r.
    rewrite Z.rem_mod_nonneg by lia. reflexivity. }
  change MAX_YEAR with 262142 in *.
  assert (HC : forall Y', 0 <= Y' -> Y' mod 10 = y -> imm_code (wed3 (12 * Y' + (m - 1))) = Some [letter m; 48 + y]).
  { intros Y' P E. pose proof (wed3_day (12 * Y' + (m - 1))) as (MW & D & W).
    rewrite imm_code_eq by (apply wed3_unique; now rewrite MW).
    destruct (year_mi_div (wed3 (12 * Y' + (m - 1)))) as [A B]. rewrite MW in A, B.
    replace (year (wed3 (12 * Y' + (m - 1)))) with Y' by lia. replace (month (wed3 (12 * Y' + (m - 1)))) with m by lia.
    rewrite Z.rem_mod_nonneg, E by lia. unfold small_to_string. replace (y <? 0) with false by lia. reflexivity. }
  assert (HE : forall e, ref <= e -> imm_code e = Some [letter m; 48 + y] -> exists Y', e = wed3 (12 * Y' + (m - 1)) /\ Y' mod 10 = y /\ year ref <= Y').
  { intros e L C. destruct (is_imm_date e false) eqn:I.
    2:{ unfold imm_code in C. rewrite I in C. discriminate C. }
    apply is_imm_date_spec in I. destruct I as [T _]. rewrite imm_code_eq in C by exact T.
    pose proof (year_mono ref e L) as YM. pose proof (ymd_valid e) as [V _].
    rewrite Z.rem_mod_nonneg in C by lia. unfold small_to_string in C.
    replace (year e mod 10 <? 0) with false in C by lia. 
    pose proof (f_equal (fun o => match o with Some [x; _] => x | _ => 0 end) C) as C1.
    pose proof (f_equal (fun o => match o with Some [_; x] => x | _ => 0 end) C) as C2. cbv beta iota in C1, C2. clear C.
    apply letter_inj in C1; [|exact V|exact M].
    exists (year e). split; [|split; [lia|exact YM]].
    apply wed3_unique in T. rewrite T at 1. f_equal. rewrite mi_def. lia. }
  rewrite imm_date_eq; [|exact M|exact Y|]. 2:{ fold Y0. change MIN_YEAR with (-262143). change MAX_YEAR with 262142. lia. }
  fold Y0. cbv zeta. destruct (Z.ltb_spec (wed3 (12 * Y0 + (m - 1))) ref) as [L|L].
  - change MAX_YEAR with 262142. replace (Y0 + 10 <=? 262142) with true by lia.
    exists (wed3 (12 * (Y0 + 10) + (m - 1))). split; [reflexivity|].
    split; [apply Z.lt_le_incl, wed3_gt_year; lia|]. split; [apply HC; lia|].
    intros e E1 E2. destruct (HE e E1 E2) as (Y' & -> & Q1 & Q2).
    destruct (Z.eq_dec Y' Y0) as [->|NE]; [lia|].
    assert (Y0 + 10 <= Y') by lia.
    destruct (Z.eq_dec Y' (Y0 + 10)) as [->|NE']; [lia|].
    apply Z.lt_le_incl. apply wed3_gt_year.
    pose proof (wed3_day (12 * (Y0 + 10) + (m - 1))) as (MW & _ & _). rewrite (proj1 (year_mi_div _)), MW. lia.
  - exists (wed3 (12 * Y0 + (m - 1))). split; [reflexivity|]. split; [exact L|]. split; [apply HC; lia|].
    intros e E1 E2. destruct (HE e E1 E2) as (Y' & -> & Q1 & Q2).
    destruct (Z.eq_dec Y' Y0) as [->|NE]; [lia|].
    assert (Y0 + 10 <= Y') by lia.
    apply Z.lt_le_incl. apply wed3_gt_year.
    pose proof (wed3_day (12 * Y0 + (m - 1))) as (MW & _ & _). rewrite (proj1 (year_mi_div _)), MW. lia.
Qed.

Lemma imm_date_lower oc p now s ref a b : s = [a; b] -> In a (cycle_chars false) -> 48 <= b <= 57 -> ~ In a imm_letters ->
  imm_date oc p now s ref = Panic PUnwrap.
Proof.
  intros -> A B N. unfold imm_date.
  assert (C : is_imm_code [a; b] false = Ok true) by (apply is_imm_code_true; eauto).
  rewrite C. cbn [obind negb nth_error ounwrap].
  assert (I : forall l i, ~ In a l -> index_of a l i = None).
  { induction l as [|x l IH]; intros i Q; cbn [index_of]; [reflexivity|].
    destruct (Z.eqb_spec x a); [subst; exfalso; apply Q; now left|]. apply IH. intros K. apply Q. now right. }
  rewrite I by exact N. reflexivity.
Qed.
