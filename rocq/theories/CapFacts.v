(** Proofs about the caplet volatility surface. *)
From Coq Require Import ZArith Lia Bool List Reals Lra Permutation Sorting.Sorted.
Import ListNotations.
From Verif Require Import Outcome Date Sorting Fx ForwardPoints YieldCurve YieldCurveFacts FxForward Swap SwapValueFacts Normal BlackScholes VolSurface VolFacts CapSurface.
Open Scope R_scope.
Local Ltac lia := unfold date in *; Lia.lia.

(** ** Interpolation in strike *)
Lemma scan_nodes_knot l x y : increases l -> (2 <= length l)%nat -> In (x, y) l -> scan_nodes l x = Some y.
Proof.
  induction l as [|lo [|hi r] IH]; intros S L I; cbn [length] in L; [lia|lia|].
  inversion S as [|? ? S' F]; subst. inversion F as [|? ? F1 F2]; subst.
  cbn [scan_nodes].
  destruct I as [->|[->|I]]; cbn [fst snd] in *.
  - destruct (Rle_dec x x); [|lra]. destruct (Rle_dec x (fst hi)); [|lra]. cbv zeta. f_equal. unfold Rdiv. ring_simplify. ring.
  - destruct (Rle_dec (fst lo) x); [|lra]. destruct (Rle_dec x x); [|lra]. cbv zeta. f_equal. field. lra.
  - assert (fst hi < x). { inversion S' as [|? ? _ F3]; subst. rewrite Forall_forall in F3. exact (F3 _ I). }
    destruct r as [|k r]; [destruct I|].
    assert (E : scan_nodes (hi :: k :: r) x = Some y) by (apply IH; [exact S'|cbn; lia|right; exact I]).
    destruct (Rle_dec (fst lo) x); [|exact E]. destruct (Rle_dec x (fst hi)); [lra|exact E].
Qed.

Lemma interpolate_knot l x y : increases l -> In (x, y) l -> interpolate_nodes l x = Ok y.
Proof.
  intros S I. destruct l as [|a [|b r]]; [destruct I|destruct I as [->|[]]; reflexivity|].
  unfold interpolate_nodes. cbv zeta.
  assert (LE : last (b :: r) a = last (a :: b :: r) a) by reflexivity. rewrite LE.
  pose proof (increases_last (a :: b :: r) a S ltac:(discriminate) _ I) as HL.
  inversion S as [|? ? S' F]; subst. rewrite Forall_forall in F.
  destruct (Rle_dec x (fst a)) as [C|C].
  - destruct I as [->|I]; [reflexivity|]. specialize (F _ I). cbn [fst] in F. lra.
  - destruct (Rle_dec (fst (last (a :: b :: r) a)) x) as [C'|C'].
    + destruct HL as [E|HL]; [rewrite <- E; reflexivity|]. cbn [fst] in HL. lra.
    + rewrite (scan_nodes_knot _ x y S); [reflexivity|cbn; lia|exact I].
Qed.

(** ** The strip of one column *)
Definition ascending (l : list strip_point) : Prop := StronglySorted (fun a b => (sp_expiry a < sp_expiry b)%Z) l.

Lemma ascending_app l m : ascending (l ++ m) <-> ascending l /\ ascending m /\ forall a b, In a l -> In b m -> (sp_expiry a < sp_expiry b)%Z.
Proof.
  unfold ascending. induction l as [|x l IH]; cbn.
  - split; [intros H; repeat split; [constructor|exact H|intros a b []]|intros (_ & H & _); exact H].
  - split.
    + intros H. inversion H as [|? ? H1 H2]; subst. apply IH in H1 as (A & B & C). rewrite Forall_app in H2. destruct H2 as [H2 H3].
      split; [constructor; assumption|]. split; [exact B|]. intros a b [<-|Ia] Ib; [rewrite Forall_forall in H3; auto|auto].
    + intros (A & B & C). inversion A as [|? ? A1 A2]; subst. constructor.
      * apply IH. split; [exact A1|]. split; [exact B|]. intros; apply C; [right; assumption|assumption].
      * rewrite Forall_app. split; [exact A2|]. rewrite Forall_forall. intros b Ib. apply C; [left; reflexivity|exact Ib].
Qed.

Lemma rev_last {A} (l : list A) a r : rev l = a :: r -> l = rev r ++ [a].
Proof. intros E. rewrite <- (rev_involutive l), E. reflexivity. Qed.

Section Loop.
  Context (brent : R -> R -> (R -> outcome R) -> outcome R) (y : curve) (vd : date).
  Definition residual (q : cap_quote) (pre : list strip_point) (x : R) : outcome R :=
    do npv <- price_cap_with_strip y vd q pre x; Ok (npv - cq_market_npv q).

  Lemma strip_loop_spec quotes : forall strip0 strip, strip_loop brent y vd strip0 quotes = Ok strip ->
    ascending strip0 -> StronglySorted (fun a b => (quote_key vd a <= quote_key vd b)%Z) quotes ->
    (forall p q, In p strip0 -> In q quotes -> (sp_expiry p <= quote_key vd q)%Z) ->
    (exists more, strip = strip0 ++ more) /\ ascending strip /\
    (forall q, In q quotes -> exists e, last_accrual_start q = Ok e /\ In e (map sp_expiry strip)) /\
    (forall pre p post, strip = pre ++ p :: post -> (length strip0 <= length pre)%nat ->
       exists q, In q quotes /\ last_accrual_start q = Ok (sp_expiry p) /\
         brent (/ 10 ^ 5) (1 / 10) (residual q pre) = Ok (sp_sigma p)).
  Proof.
    induction quotes as [|q r IH]; intros strip0 strip H SA SQ LE; cbn [strip_loop] in H.
    - assert (strip = strip0) as -> by congruence. split; [exists []; rewrite app_nil_r; reflexivity|]. split; [exact SA|].
      split; [intros q []|]. intros pre p post E L. exfalso. apply (f_equal (@length _)) in E. rewrite app_length in E. cbn in E. lia.
    - apply obind_Ok in H as (e & He & H). inversion SQ as [|? ? SQ' FQ]; subst.
      assert (KQ : quote_key vd q = e) by (unfold quote_key; rewrite He; reflexivity).
      destruct (rev strip0) as [|z rz] eqn:ER.
      + (* nothing stripped yet *)
        apply obind_Ok in H as (sigma & Hb & H).
        assert (strip0 = []) by (rewrite <- (rev_involutive strip0), ER; reflexivity). subst strip0. cbn [app] in H.
        set (pt := {| sp_expiry := e; sp_sigma := sigma |}) in *.
        destruct (IH _ _ H) as ((more & ->) & SA' & QS & PS).
        { repeat constructor. }
        { exact SQ'. }
        { intros p q' [<-|[]] Iq. unfold pt; cbn [sp_expiry]. rewrite Forall_forall in FQ. specialize (FQ q' Iq). cbv beta in FQ. lia. }
        split; [exists (pt :: more); reflexivity|]. split; [exact SA'|]. split.
        * intros q' [<-|Iq]; [exists e; split; [exact He|left; reflexivity]|auto].
        * intros pre p post E L. destruct pre as [|p0 pre].
          { cbn in E. injection E as E1 E2. subst p. exists q. split; [left; reflexivity|]. split; [exact He|exact Hb]. }
          { destruct (PS _ _ _ E) as (q' & Iq & A & B); [cbn; lia|]. exists q'. split; [right; exact Iq|auto]. }
      + pose proof (rev_last _ _ _ ER) as ES. destruct (e <=? sp_expiry z)%Z eqn:C.
        * (* covered *)
          apply Z.leb_le in C.
          assert (Iz : In z strip0) by (rewrite ES; apply in_app_iff; right; left; reflexivity).
          pose proof (LE z q Iz (or_introl eq_refl)) as LZ. rewrite KQ in LZ.
          destruct (IH _ _ H SA SQ') as ((more & ->) & SA' & QS & PS); [intros; apply LE; [assumption|right; assumption]|].
          split; [exists more; reflexivity|]. split; [exact SA'|]. split.
          { intros q' [<-|Iq]; [|auto]. exists e. split; [exact He|]. replace e with (sp_expiry z) by (lia). apply in_map. apply in_app_iff. left. exact Iz. }
          { intros pre p post E L. destruct (PS _ _ _ E L) as (q' & Iq & A & B). exists q'. split; [right; exact Iq|auto]. }
        * apply Z.leb_gt in C. apply obind_Ok in H as (sigma & Hb & H).
          set (pt := {| sp_expiry := e; sp_sigma := sigma |}) in *.
          assert (SA1 : ascending (strip0 ++ [pt])).
          { apply ascending_app. split; [exact SA|]. split; [repeat constructor|]. intros a b Ia [<-|[]]. unfold pt; cbn [sp_expiry].
            rewrite ES in SA, Ia. apply ascending_app in SA as (_ & _ & X). apply in_app_iff in Ia as [Ia|[<-|[]]]; [|lia].
            specialize (X a z Ia (or_introl eq_refl)). lia. }
          destruct (IH _ _ H SA1 SQ') as ((more & E) & SA' & QS & PS).
          { intros p q' Ip Iq. apply in_app_iff in Ip as [Ip|[<-|[]]]; [apply LE; [exact Ip|right; exact Iq]|].
            unfold pt; cbn [sp_expiry]. rewrite Forall_forall in FQ. specialize (FQ q' Iq). cbv beta in FQ. lia. }
          split; [exists (pt :: more); rewrite E, <- app_assoc; reflexivity|]. split; [exact SA'|]. split.
          { intros q' [<-|Iq]; [|auto]. exists e. split; [exact He|]. rewrite E, <- app_assoc. apply (in_map sp_expiry _ pt).
            apply in_app_iff. right. left. reflexivity. }
          { intros pre p post E' L. destruct (Nat.eq_dec (length pre) (length strip0)) as [EL|NL].
            - assert (pre = strip0 /\ p = pt) as [-> ->].
              { rewrite E, <- app_assoc in E'. cbn [app] in E'. clear - E' EL. revert pre EL E'.
                induction strip0 as [|a l IH']; intros [|b pre] EL E'; cbn in EL; try lia.
                - cbn in E'. injection E' as E1 E2. auto.
                - cbn in E'. injection E' as E1 E2. subst b. destruct (IH' pre ltac:(lia) E2) as [-> ->]. auto. }
              exists q. split; [left; reflexivity|]. split; [exact He|exact Hb].
            - destruct (PS _ _ _ E') as (q' & Iq & A & B); [rewrite app_length; cbn; lia|]. exists q'. split; [right; exact Iq|auto]. }
  Qed.
End Loop.

(** ** Grouping by strike *)
(** Strikes that differ, differ by at least the grouping width. *)
Definition strikes_apart (quotes : list cap_quote) : Prop :=
  forall q q', In q quotes -> In q' quotes -> Rabs (cq_strike q - cq_strike q') < / 10 ^ 12 -> cq_strike q = cq_strike q'.

Definition grouped (Q : list cap_quote) (G : list (R * list cap_quote)) : Prop :=
  NoDup (map fst G) /\
  (forall k qs, In (k, qs) G -> forall q, In q qs <-> In q Q /\ cq_strike q = k) /\
  (forall q, In q Q -> In (cq_strike q) (map fst G)) /\
  (forall k qs, In (k, qs) G -> qs <> []).

Lemma small12 x : Rabs (x - x) < / 10 ^ 12.
Proof. rewrite Rminus_diag_eq, Rabs_R0 by reflexivity. apply Rinv_0_lt_compat, pow_lt. lra. Qed.

Lemma add_group G q : NoDup (map fst G) ->
  (forall k, In k (map fst G) -> Rabs (k - cq_strike q) < / 10 ^ 12 -> k = cq_strike q) ->
  NoDup (map fst (add_to_group G q)) /\
  (forall k, In k (map fst (add_to_group G q)) <-> k = cq_strike q \/ In k (map fst G)) /\
  (forall k qs, In (k, qs) (add_to_group G q) <->
     (k <> cq_strike q /\ In (k, qs) G) \/
     (k = cq_strike q /\ ((exists qs0, In (k, qs0) G /\ qs = qs0 ++ [q]) \/ (~ In k (map fst G) /\ qs = [q])))).
Proof.
  induction G as [|[k0 qs0] r IH]; cbn [add_to_group map fst]; intros ND SEP.
  - cbn. repeat split.
    + constructor; [intros []|constructor].
    + intros [E|[]]; auto.
    + intros [->|[]]; auto.
    + intros [E|[]]. injection E as <- <-. right. split; [reflexivity|]. right. auto.
    + intros [[_ []]|[-> [(q0 & [] & _)|[_ ->]]]]. left. reflexivity.
  - inversion ND as [|? ? NI ND']; subst.
    destruct (Rlt_dec (Rabs (k0 - cq_strike q)) (/ 10 ^ 12)) as [C|C].
    + assert (E : k0 = cq_strike q) by (apply SEP; [left; reflexivity|exact C]). subst k0. cbn [map fst]. repeat split.
      * exact ND.
      * intros [E|E]; [left; congruence|right; right; exact E].
      * intros [->|[E|E]]; [left; reflexivity|left; exact E|right; exact E].
      * intros [E|I].
        { injection E as <- <-. right. split; [reflexivity|]. left. exists qs0. split; [left; reflexivity|reflexivity]. }
        left. split; [|right; exact I]. intros ->. apply NI. apply in_map_iff. exists (cq_strike q, qs). split; [reflexivity|exact I].
      * intros [[N [E|I]]|[-> [(q0 & [E|I] & ->)|[N _]]]].
        { congruence. }
        { right. exact I. }
        { left. congruence. }
        { exfalso. apply NI. apply in_map_iff. exists (cq_strike q, q0). split; [reflexivity|exact I]. }
        { exfalso. apply N. left. reflexivity. }
    + destruct (IH ND') as (A1 & A2 & A3); [intros k I; apply SEP; right; exact I|].
      assert (NE : k0 <> cq_strike q). { intros ->. apply C. apply small12. }
      cbn [map fst]. repeat split.
      * constructor; [|exact A1]. rewrite A2. intros [E|E]; [congruence|contradiction].
      * intros [E|E]; [right; left; exact E|]. apply A2 in E as [E|E]; [left; exact E|right; right; exact E].
      * intros [E|[E|E]]; [right; apply A2; left; exact E|left; exact E|right; apply A2; right; exact E].
      * intros [E|I].
        { injection E as <- <-. left. split; [exact NE|left; reflexivity]. }
        apply A3 in I as [[N I]|[-> [(q0 & I & ->)|[N ->]]]].
        { left. split; [exact N|right; exact I]. }
        { right. split; [reflexivity|]. left. exists q0. split; [right; exact I|reflexivity]. }
        { right. split; [reflexivity|]. right. split; [intros [E|E]; [congruence|contradiction]|reflexivity]. }
      * intros [[N [E|I]]|[-> [(q0 & [E|I] & ->)|[N ->]]]].
        { left. exact E. }
        { right. apply A3. left. auto. }
        { congruence. }
        { right. apply A3. right. split; [reflexivity|]. left. exists q0. auto. }
        { right. apply A3. right. split; [reflexivity|]. right. split; [intros E; apply N; right; exact E|reflexivity]. }
Qed.

Lemma grouped_fold quotes : forall Q G, strikes_apart (Q ++ quotes) -> grouped Q G -> grouped (Q ++ quotes) (fold_left add_to_group quotes G).
Proof.
  induction quotes as [|q r IH]; intros Q G SEP GR; cbn [fold_left]; [rewrite app_nil_r; exact GR|].
  replace (Q ++ q :: r) with ((Q ++ [q]) ++ r) in * by (rewrite <- app_assoc; reflexivity).
  apply IH; [exact SEP|]. destruct GR as (ND & VAL & KEY & NE).
  assert (INV : forall k, In k (map fst G) -> exists q', In q' Q /\ cq_strike q' = k).
  { intros k I. apply in_map_iff in I as ([k' qs] & E & I). cbn in E. subst k'. destruct qs as [|q' qs]; [exfalso; apply (NE _ _ I); reflexivity|].
    destruct (proj1 (VAL _ _ I q') (or_introl eq_refl)) as [A B]. eauto. }
  destruct (add_group G q ND) as (A1 & A2 & A3).
  { intros k I C. destruct (INV k I) as (q' & Iq & E). subst k. apply SEP; [| |exact C]; apply in_app_iff; left; apply in_app_iff; [left; exact Iq|right; left; reflexivity]. }
  split; [exact A1|]. split; [|split].
  - intros k qs I q'. apply A3 in I as [[N I]|[-> [(qs0 & I & ->)|[N ->]]]].
    + rewrite (VAL _ _ I q'). rewrite in_app_iff. split; [intros [X Y]; auto|]. intros [[X|[<-|[]]] Y]; [auto|congruence].
    + rewrite in_app_iff, (VAL _ _ I q'), in_app_iff. cbn. split.
      * intros [[X Y]|[<-|[]]]; auto.
      * intros [[X|[<-|[]]] Y]; auto.
    + rewrite in_app_iff. cbn. split.
      * intros [<-|[]]. auto.
      * intros [[X|[<-|[]]] Y]; [|auto]. exfalso. apply N. rewrite <- Y. apply KEY. exact X.
  - intros q' I. apply A2. apply in_app_iff in I as [I|[<-|[]]]; [right; apply KEY; exact I|left; reflexivity].
  - intros k qs I. apply A3 in I as [[N I]|[-> [(qs0 & I & ->)|[N ->]]]]; [apply (NE _ _ I)|destruct qs0; discriminate|discriminate].
Qed.

Lemma grouped_perm Q G G' : Permutation G G' -> grouped Q G -> grouped Q G'.
Proof.
  intros P (ND & VAL & KEY & NE). pose proof (Permutation_in (l := G') (l' := G)) as X. specialize (fun x => X x (Permutation_sym P)).
  split; [apply (Permutation_NoDup (Permutation_map fst P) ND)|]. split; [intros k qs I; apply VAL; apply X; exact I|]. split.
  - intros q I. apply (Permutation_in _ (Permutation_map fst P)). apply KEY. exact I.
  - intros k qs I. apply NE with k. apply X. exact I.
Qed.

Lemma group_quotes_spec quotes : strikes_apart quotes ->
  grouped quotes (group_quotes quotes) /\ StronglySorted Rlt (map fst (group_quotes quotes)).
Proof.
  intros SEP. assert (G : grouped quotes (fold_left add_to_group quotes [])).
  { apply (grouped_fold quotes []); [exact SEP|]. split; [constructor|]. split; [intros k qs []|]. split; [intros q []|intros k qs []]. }
  unfold group_quotes. assert (G' : grouped quotes (rsort fst (fold_left add_to_group quotes []))) by (eapply grouped_perm; [apply rsort_perm|exact G]).
  split; [exact G'|]. destruct G' as (ND & _).
  pose proof (rsort_sorted fst (fold_left add_to_group quotes [])) as S. revert ND S. generalize (rsort fst (fold_left add_to_group quotes [])) as l.
  induction l as [|a r IH]; cbn; intros ND S; [constructor|]. inversion ND; subst. inversion S as [|? ? S1 S2]; subst.
  constructor; [apply IH; assumption|]. rewrite Forall_forall in *. intros k I. apply in_map_iff in I as (b & <- & I).
  specialize (S2 b I). cbv beta in S2. assert (fst a <> fst b). { intros E. apply H1. rewrite E. apply in_map. exact I. } lra.
Qed.

(** ** Expiries *)
Lemma dedup_in l d : In d (dedup l) <-> In d l.
Proof.
  induction l as [|a [|b r] IH]; [reflexivity|reflexivity|].
  change (dedup (a :: b :: r)) with (if (a =? b)%Z then dedup (b :: r) else a :: dedup (b :: r)).
  destruct (Z.eqb_spec a b) as [->|N].
  - rewrite IH. cbn. tauto.
  - cbn [In]. rewrite IH. cbn. tauto.
Qed.
Lemma dedup_sorted l : StronglySorted (fun a b : date => (a <= b)%Z) l -> StronglySorted Z.lt (dedup l).
Proof.
  induction l as [|a [|b r] IH]; intros S; [constructor|repeat constructor|].
  change (dedup (a :: b :: r)) with (if (a =? b)%Z then dedup (b :: r) else a :: dedup (b :: r)).
  inversion S as [|? ? S1 S2]; subst. destruct (Z.eqb_spec a b) as [->|N]; [apply IH; exact S1|].
  constructor; [apply IH; exact S1|]. rewrite Forall_forall in *. intros d I. apply (proj1 (dedup_in _ d)) in I.
  pose proof (S2 b (or_introl eq_refl)) as Lb. cbv beta in Lb. destruct I as [<-|I]; [lia|].
  inversion S1 as [|? ? _ S4]; subst. rewrite Forall_forall in S4. specialize (S4 d I). cbv beta in S4. lia.
Qed.

(** ** Nodes of a pillar *)
Lemma pillar_nodes_in columns exp k v : In (k, v) (pillar_nodes columns exp) <->
  exists strip p, In (k, strip) columns /\ rfind (fun p => (sp_expiry p <=? exp)%Z) strip = Some p /\ v = sp_sigma p.
Proof.
  induction columns as [|[k0 s0] r IH]; cbn [pillar_nodes].
  - split; [intros []|intros (s & p & [] & _)].
  - destruct (rfind (fun p => (sp_expiry p <=? exp)%Z) s0) as [p0|] eqn:E.
    + cbn [In]. rewrite IH. split.
      * intros [X|(s & p & I & A & B)]; [injection X as <- <-; exists s0, p0; auto|exists s, p; auto].
      * intros (s & p & [X|I] & A & B); [injection X as <- <-; left; congruence|right; eauto].
    + rewrite IH. split; intros (s & p & I & A & B).
      * exists s, p. split; [right; exact I|auto].
      * destruct I as [X|I]; [injection X as <- <-; congruence|eauto].
Qed.
Lemma pillar_nodes_increase columns exp : StronglySorted Rlt (map fst columns) -> increases (pillar_nodes columns exp).
Proof.
  induction columns as [|[k0 s0] r IH]; cbn [pillar_nodes map fst]; intros S; [constructor|]. inversion S as [|? ? S1 S2]; subst.
  destruct (rfind _ s0) as [p0|]; [|apply IH; exact S1]. constructor; [apply IH; exact S1|].
  rewrite Forall_forall in *. intros [k v] I. apply pillar_nodes_in in I as (s & p & I & _). apply S2. apply in_map_iff. exists (k, s). auto.
Qed.

(** In a column, the point at [exp] is the most recent one at or before [exp]. *)
Lemma rfind_at strip p : ascending strip -> In p strip -> rfind (fun q => (sp_expiry q <=? sp_expiry p)%Z) strip = Some p.
Proof.
  intros S I. apply in_split in I as (l & r & ->). unfold rfind. rewrite rev_app_distr. cbn [rev]. rewrite <- app_assoc.
  apply ascending_app in S as (_ & S & _). inversion S as [|? ? S1 S2]; subst. rewrite Forall_forall in S2.
  assert (N : forall m, (forall x, In x m -> (sp_expiry p < sp_expiry x)%Z) -> find (fun q => (sp_expiry q <=? sp_expiry p)%Z) (m ++ [p] ++ rev l) = Some p).
  { induction m as [|x m IHm]; intros H; cbn [app find].
    - rewrite Z.leb_refl. reflexivity.
    - pose proof (H x (or_introl eq_refl)). destruct (Z.leb_spec (sp_expiry x) (sp_expiry p)); [lia|]. apply IHm. intros; apply H; right; assumption. }
  apply N. intros x Ix. apply S2. apply in_rev. exact Ix.
Qed.

(** The strip's own lookup. *)
Lemma sigma_split start pre p post fb : (start <= sp_expiry p)%Z ->
  caplet_sigma_for_start start (pre ++ p :: post) fb = caplet_sigma_for_start start pre (sp_sigma p).
Proof.
  intros L. induction pre as [|a r IH]; cbn [app caplet_sigma_for_start].
  - destruct (Z.leb_spec start (sp_expiry p)); [reflexivity|lia].
  - destruct (start <=? sp_expiry a)%Z; [reflexivity|exact IH].
Qed.
Lemma sigma_first start strip p fb : ascending strip -> In p strip -> (start <= sp_expiry p)%Z ->
  (forall x, In x strip -> (start <= sp_expiry x)%Z -> (sp_expiry p <= sp_expiry x)%Z) ->
  caplet_sigma_for_start start strip fb = sp_sigma p.
Proof.
  intros S I L M. apply in_split in I as (l & r & ->). rewrite sigma_split by exact L.
  apply ascending_app in S as (_ & _ & X).
  induction l as [|a l IH]; [reflexivity|]. cbn [caplet_sigma_for_start].
  destruct (Z.leb_spec start (sp_expiry a)) as [C|C].
  - exfalso. pose proof (M a (or_introl eq_refl) C). pose proof (X a p (or_introl eq_refl) (or_introl eq_refl)). lia.
  - apply IH; [intros; apply X; [right; assumption|assumption]|intros; apply M; [right; assumption|assumption]].
Qed.

(** ** The surface *)
Section Surface.
  Context (sort : list cap_quote -> list cap_quote) (sort_dates : list date -> list date)
          (brent : R -> R -> (R -> outcome R) -> outcome R) (y : curve) (vd : date).
  Context (HS : sorts_by (quote_key vd) sort) (HD : sorts_by (fun d : date => d) sort_dates).

  Lemma columns_spec quotes vs : strikes_apart quotes -> strip_caplet_vols sort sort_dates brent y vd quotes = Ok vs ->
    exists columns expiries,
      StronglySorted Rlt (map fst columns) /\
      (forall q, In q quotes -> exists strip, In (cq_strike q, strip) columns) /\
      (forall k strip, In (k, strip) columns ->
         (exists q0, In q0 quotes /\ cq_strike q0 = k) /\ ascending strip /\
         (forall q, In q quotes -> cq_strike q = k -> exists e, last_accrual_start q = Ok e /\ In e (map sp_expiry strip)) /\
         (forall pre p post, strip = pre ++ p :: post -> exists q, In q quotes /\ cq_strike q = k /\ last_accrual_start q = Ok (sp_expiry p) /\
            brent (/ 10 ^ 5) (1 / 10) (residual y vd q pre) = Ok (sp_sigma p))) /\
      StronglySorted Z.lt expiries /\
      (forall d, In d expiries <-> exists k strip p, In (k, strip) columns /\ In p strip /\ sp_expiry p = d) /\
      vs = map (fun exp => {| cp_expiry := exp; cp_nodes := pillar_nodes columns exp |}) expiries.
  Proof.
    intros SEP H. unfold strip_caplet_vols in H. apply obind_Ok in H as (columns & HC & H). cbv zeta in H.
    apply (f_equal (fun o => match o with Ok v => v | _ => vs end)) in H. cbv beta iota in H.
    destruct (group_quotes_spec quotes SEP) as [(ND & VAL & KEY & NE) SG].
    assert (EK : map fst columns = map fst (group_quotes quotes)).
    { clear - HC. revert columns HC. generalize (group_quotes quotes) as G. induction G as [|g r IH]; cbn [omapM]; intros cs H; [injection H as <-; reflexivity|].
      apply obind_Ok in H as (c & Hc & H). apply obind_Ok in H as (cr & Hr & H). injection H as <-. apply obind_Ok in Hc as (s & _ & Hc). injection Hc as <-.
      cbn. f_equal. apply IH. exact Hr. }
    set (expiries := dedup (sort_dates (flat_map (fun c => map sp_expiry (snd c)) columns))) in *.
    assert (EI : forall d, In d expiries <-> exists k strip p, In (k, strip) columns /\ In p strip /\ sp_expiry p = d).
    { intros d. unfold expiries. rewrite dedup_in. destruct (HD (flat_map (fun c => map sp_expiry (snd c)) columns)) as [P _].
      split.
      - intros I. apply (Permutation_in _ (Permutation_sym P)) in I. apply in_flat_map in I as ([k s] & I1 & I2). cbn [snd] in I2.
        apply in_map_iff in I2 as (p & E & I2). eauto 6.
      - intros (k & s & p & I1 & I2 & E). apply (Permutation_in _ P). apply in_flat_map. exists (k, s). split; [exact I1|]. cbn [snd]. apply in_map_iff. eauto. }
    exists columns, expiries. split; [rewrite EK; exact SG|]. split.
    { intros q I. apply KEY in I. rewrite <- EK in I. apply in_map_iff in I as ([k s] & E & I). cbn in E. subst k. eauto. }
    assert (SCOL : StronglySorted Rlt (map fst columns)) by (rewrite EK; exact SG).
    assert (COL : forall k strip, In (k, strip) columns ->
         (exists q0, In q0 quotes /\ cq_strike q0 = k) /\ ascending strip /\
         (forall q, In q quotes -> cq_strike q = k -> exists e, last_accrual_start q = Ok e /\ In e (map sp_expiry strip)) /\
         (forall pre p post, strip = pre ++ p :: post -> exists q, In q quotes /\ cq_strike q = k /\ last_accrual_start q = Ok (sp_expiry p) /\
            brent (/ 10 ^ 5) (1 / 10) (residual y vd q pre) = Ok (sp_sigma p))).
    { intros k strip I. apply (omapM_in_inv _ _ _ _ HC) in I as ([k' qs] & I & E). cbn [fst snd] in E.
      apply obind_Ok in E as (s & Es & E). assert (k' = k /\ s = strip) as [-> ->] by (split; congruence). clear E.
      destruct (HS qs) as [P S]. 
      destruct (strip_loop_spec brent y vd (sort qs) [] strip Es) as (_ & SA & QS & PS); [constructor|exact S|intros p q []|].
      split.
      { destruct qs as [|q0 qs]; [exfalso; apply (NE _ _ I); reflexivity|]. exists q0. apply (VAL _ _ I q0). left. reflexivity. }
      split; [exact SA|]. split.
      - intros q Iq Eq. apply QS. apply (Permutation_in _ P). apply (VAL _ _ I q). auto.
      - intros pre p post Ep. destruct (PS pre p post Ep) as (q & Iq & A & B); [cbn; lia|].
        apply (Permutation_in _ (Permutation_sym P)) in Iq. apply (VAL _ _ I q) in Iq as [Iq Eq]. exists q. auto. }
    split; [exact COL|]. split; [apply dedup_sorted, (proj2 (HD _))|]. split; [exact EI|].
    rewrite <- H. clear H.
    assert (X : forall l, (forall d, In d l -> In d expiries) ->
      flat_map (fun exp => match rsort fst (pillar_nodes columns exp) with [] => [] | _ => [{| cp_expiry := exp; cp_nodes := rsort fst (pillar_nodes columns exp) |}] end) l
      = map (fun exp => {| cp_expiry := exp; cp_nodes := pillar_nodes columns exp |}) l).
    { induction l as [|d l IH]; intros SUB; [reflexivity|]. cbn [flat_map map]. rewrite IH by (intros; apply SUB; right; assumption).
      rewrite rsort_id.
      2: { pose proof (pillar_nodes_increase columns d SCOL) as S. clear - S. induction S as [|u l S IH F]; constructor; [exact IH|]. eapply Forall_impl; [|exact F]. cbn. intros; lra. }
      destruct (proj1 (EI d) (SUB d (or_introl eq_refl))) as (k & s & p & I1 & I2 & E).
      destruct (COL _ _ I1) as (_ & SA & _).
      pose proof (rfind_at s p SA I2) as F. rewrite E in F.
      assert (NI : In (k, sp_sigma p) (pillar_nodes columns d)) by (apply pillar_nodes_in; eauto).
      destruct (pillar_nodes columns d) eqn:EP; [destruct NI|]. reflexivity. }
    apply X. auto.
  Qed.

  (** Where a column has a point at every expiry up to [e], the surface returns that
      column's own volatilities up to [e]. *)
  Lemma lookup columns expiries k strip pe start fb :
    StronglySorted Rlt (map fst columns) -> StronglySorted Z.lt expiries ->
    (forall d, In d expiries <-> exists k strip p, In (k, strip) columns /\ In p strip /\ sp_expiry p = d) ->
    In (k, strip) columns -> ascending strip -> In pe strip -> (start <= sp_expiry pe)%Z ->
    (forall d, In d expiries -> (d <= sp_expiry pe)%Z -> In d (map sp_expiry strip)) ->
    caplet_volatility (map (fun exp => {| cp_expiry := exp; cp_nodes := pillar_nodes columns exp |}) expiries) start k
    = Ok (caplet_sigma_for_start start strip fb).
  Proof.
    intros SC SE EI IC SA IP LS COMP.
    set (f := fun exp => {| cp_expiry := exp; cp_nodes := pillar_nodes columns exp |}).
    assert (FE : In (sp_expiry pe) expiries) by (apply EI; eauto 6).
    assert (FIND : exists d, find (fun p => (start <=? cp_expiry p)%Z) (map f expiries) = Some (f d) /\ In d expiries /\ (start <= d)%Z /\
      forall d', In d' expiries -> (start <= d')%Z -> (d <= d')%Z).
    { clear - SE FE LS. induction SE as [|a r S IH F]; [destruct FE|]. cbn [map find cp_expiry f].
      destruct (Z.leb_spec start a) as [C|C].
      - exists a. split; [reflexivity|]. split; [left; reflexivity|]. split; [exact C|]. rewrite Forall_forall in F.
        intros d' [<-|I] _; [lia|]. specialize (F d' I). lia.
      - destruct FE as [->|FE]; [lia|]. destruct (IH FE) as (d & A & B & C' & D). exists d. split; [exact A|]. split; [right; exact B|]. split; [exact C'|].
        intros d' [<-|I] L; [lia|auto]. }
    destruct FIND as (d & FD & ID & LD & MIN).
    assert (In d (map sp_expiry strip)) as IDS by (apply COMP; [exact ID|apply MIN; [exact FE|exact LS]]).
    apply in_map_iff in IDS as (p & Ep & Ip).
    unfold caplet_volatility. rewrite FD. destruct (map f expiries) as [|p0 pr] eqn:EM.
    { destruct expiries; [destruct FE|discriminate]. }
    cbn [cp_nodes f]. rewrite (interpolate_knot _ k (sp_sigma p)).
    - f_equal. symmetry. apply sigma_first; [exact SA|exact Ip|lia|].
      intros x Ix Lx. rewrite Ep. apply MIN; [apply EI; eauto 6|exact Lx].
    - apply pillar_nodes_increase. exact SC.
    - apply pillar_nodes_in. exists strip, p. split; [exact IC|]. split; [|reflexivity]. rewrite <- Ep. apply rfind_at; assumption.
  Qed.
End Surface.

(** ** Caplets *)
Definition kind_price (k : cap_kind) (F K V : R) : R := match k with Cap => bachelier_call F K V | Floor => bachelier_put F K V end.

Lemma quote_caplet_iff y vd q strip trial a x : quote_caplet y vd q strip trial a = Ok x <->
  exists tau ds de dp, dc_yf (cq_day_counter q) (accrual_start a) (accrual_end a) = Ok tau /\
    discount y (accrual_start a) = Ok ds /\ discount y (accrual_end a) = Ok de /\ discount y (pay_date a) = Ok dp /\
    x = sign (cq_direction q) * cq_notional q * tau * dp *
        kind_price (cq_kind q) ((ds / de - 1) / tau) (cq_strike q)
          (caplet_total_variance (cq_style q) (caplet_sigma_for_start (accrual_start a) strip trial)
             (yf365 vd (accrual_start a)) (yf365 vd (accrual_end a))).
Proof.
  unfold quote_caplet, kind_price. split.
  - intros H. apply obind_Ok in H as (tau & H1 & H). apply obind_Ok in H as (ds & H2 & H). apply obind_Ok in H as (de & H3 & H).
    apply obind_Ok in H as (dp & H4 & H). apply Ok_R in H. exists tau, ds, de, dp. repeat (split; [assumption|]). exact (eq_sym H).
  - intros (tau & ds & de & dp & H1 & H2 & H3 & H4 & ->). rewrite H1. cbn [obind]. rewrite H2. cbn [obind]. rewrite H3. cbn [obind].
    rewrite H4. reflexivity.
Qed.

Lemma caplet_pv_iff c y vs rs vshift a x : caplet_pv c y vs rs vshift a = Ok x <->
  exists tau ds de dp s, dc_yf (cf_day_counter c) (accrual_start a) (accrual_end a) = Ok tau /\
    shifted_discount y (accrual_start a) rs = Ok ds /\ shifted_discount y (accrual_end a) rs = Ok de /\ shifted_discount y (pay_date a) rs = Ok dp /\
    caplet_volatility vs (accrual_start a) (cf_strike c) = Ok s /\
    x = sign (cf_direction c) * cf_notional c * tau * dp *
        kind_price (cf_kind c) ((ds / de - 1) / tau) (cf_strike c)
          (caplet_total_variance (cf_style c) (s + vshift * (1 / 10000))
             (yf365 (cf_valuation_date c) (accrual_start a)) (yf365 (cf_valuation_date c) (accrual_end a))).
Proof.
  unfold caplet_pv, kind_price. split.
  - intros H. apply obind_Ok in H as (tau & H1 & H). apply obind_Ok in H as (ds & H2 & H). apply obind_Ok in H as (de & H3 & H).
    apply obind_Ok in H as (dp & H4 & H). cbv zeta in H. apply obind_Ok in H as (s & H5 & H). apply Ok_R in H. exists tau, ds, de, dp, s. repeat (split; [assumption|]). exact (eq_sym H).
  - intros (tau & ds & de & dp & s & H1 & H2 & H3 & H4 & H5 & ->). rewrite H1. cbn [obind]. rewrite H2. cbn [obind]. rewrite H3. cbn [obind].
    rewrite H4. cbn [obind]. cbv zeta. rewrite H5. reflexivity.
Qed.

Lemma sum_pv_transfer f g s w : (forall a x, In a s -> f a = Ok x -> g a = Ok x) -> sum_pv f 0 s = Ok w -> sum_pv g 0 s = Ok w.
Proof.
  intros H E. apply sum_pv_iff in E as (xs & F & ->). apply sum_pv_iff. exists xs. split; [|reflexivity].
  clear - H F. induction F as [|a x s xs E F IH]; constructor; [apply H; [left; reflexivity|exact E]|apply IH; intros; apply H; [right; assumption|assumption]].
Qed.
Lemma sum_pv_ok f s : forall acc, (forall a, In a s -> exists x, f a = Ok x) -> exists w, sum_pv f acc s = Ok w.
Proof.
  induction s as [|a s IH]; intros acc H; [exists acc; reflexivity|]. cbn [sum_pv]. destruct (H a (or_introl eq_refl)) as (x & ->). cbn [obind].
  apply IH. intros; apply H; right; assumption.
Qed.
Lemma sum_pv_each f s acc w : sum_pv f acc s = Ok w -> forall a, In a s -> exists x, f a = Ok x.
Proof.
  intros E. apply sum_pv_iff in E as (xs & F & _). clear w. induction F as [|a x s xs E F IH]; intros b []; [subst; eauto|auto].
Qed.
