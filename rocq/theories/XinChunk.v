(** Proofs about the division of the data of a file between processes. *)
From Coq Require Import List ZArith Bool Arith Lia ZifyNat.
From Verif Require Import Base TupleModel XinModel XinSpec XinBytes.
Import ListNotations.
Local Open Scope Z_scope.

Lemma ceiling_unique n b c c' : 0 < b -> ceiling n b c -> ceiling n b c' -> c = c'.
Proof. unfold ceiling; intros. nia. Qed.
Lemma bin_divide_spec n b : 0 <= n -> 0 < b -> ceiling n b (bin_divide n b).
Proof.
  intros Hn Hb. unfold bin_divide, ceiling. rewrite Z.quot_div_nonneg by lia.
  pose proof (Z.div_mod (n + b - 1) b ltac:(lia)). pose proof (Z.mod_pos_bound (n + b - 1) b Hb). nia.
Qed.
Lemma bin_divide_nonneg n b : 0 <= n -> 0 < b -> 0 <= bin_divide n b.
Proof. intros Hn Hb. pose proof (bin_divide_spec n b Hn Hb) as H. unfold ceiling in H. nia. Qed.
Lemma bin_divide_anti n b b' : 0 <= n -> 0 < b' <= b -> bin_divide n b <= bin_divide n b'.
Proof.
  intros Hn Hb. pose proof (bin_divide_spec n b Hn ltac:(lia)) as H. pose proof (bin_divide_spec n b' Hn ltac:(lia)) as H'.
  pose proof (bin_divide_nonneg n b' Hn ltac:(lia)). unfold ceiling in *. nia.
Qed.

(** The state of the loops. *)
Definition sound (p : Z) (s : Z * Z) : Prop := 1 <= fst s <= p /\ ceiling p (fst s) (snd s).
Lemma sound_pos p s : sound p s -> 1 <= snd s <= p.
Proof. unfold sound, ceiling; intros [H1 H2]; nia. Qed.
Lemma sound_one p s : sound p s -> 1 < snd s -> fst s < p.
Proof. unfold sound, ceiling; intros [H1 H2]; nia. Qed.
Lemma sound_first p : 1 <= p -> sound p (1, p).
Proof. intros; unfold sound, ceiling; cbn [fst snd]; lia. Qed.
Lemma sound_doubled p i : 1 <= i <= p -> sound p (doubled p i).
Proof. intros H. unfold sound, doubled; cbn [fst snd]. split; [lia|]. apply bin_divide_spec; lia. Qed.
Lemma sound_halved p i : 1 <= i <= p -> sound p (halved p i).
Proof.
  intros H. unfold sound, halved; cbn [fst snd].
  assert (i / 2 <= i) by (apply Z.div_le_upper_bound; lia). split; [lia|]. apply bin_divide_spec; lia.
Qed.
Lemma doubled_less p s : sound p s -> snd (doubled p (fst s)) <= snd s.
Proof.
  intros [H1 H2]. unfold doubled; cbn [fst snd].
  rewrite (ceiling_unique p (fst s) (snd s) (bin_divide p (fst s))); try lia; auto.
  - apply bin_divide_anti; lia.
  - apply bin_divide_spec; lia.
Qed.

Lemma coarsen_spec count p t fuel s : 0 <= count -> 1 <= p -> sound p s -> p - fst s < Z.of_nat fuel ->
  exists s', coarsen count p t fuel s = Some s' /\ sound p s' /\ (t <= bin_divide count (snd s') \/ snd s' = 1).
Proof.
  intros Hc Hp. revert s; induction fuel; intros s Hs Hf; [exfalso; destruct Hs; lia|].
  cbn [coarsen]. destruct (Z.ltb_spec (bin_divide count (snd s)) t).
  2:{ cbn [andb]. exists s; auto. }
  destruct (Z.ltb_spec 1 (snd s)); cbn [andb].
  - apply IHfuel.
    + apply sound_doubled; exact (proj1 Hs).
    + pose proof (sound_one p s Hs ltac:(lia)). destruct Hs. unfold doubled; cbn [fst]. lia.
  - exists s; split; [reflexivity|]; split; [exact Hs|]. right; pose proof (sound_pos p s Hs); lia.
Qed.
Lemma adjust_up_sound p a s : sound p s -> sound p (adjust_up p a s).
Proof.
  revert s; induction a; intros s Hs; cbn [adjust_up]; auto. destruct (snd s <? p); auto. apply IHa, sound_halved, Hs.
Qed.
Lemma adjust_down_sound p a s : sound p s -> sound p (adjust_down p a s) /\ snd (adjust_down p a s) <= snd s.
Proof.
  revert s; induction a; intros s Hs; cbn [adjust_down]; [split; auto; lia|]. destruct (1 <? snd s); [|split; auto; lia].
  destruct (IHa (doubled p (fst s)) (sound_doubled p _ (proj1 Hs))) as [A B]. split; auto. pose proof (doubled_less p s Hs). lia.
Qed.

Lemma chunkify_spec count p t adj : 0 <= count -> 1 <= p ->
  exists i n c, chunkify count p t adj = Some (i, n, c) /\ 1 <= i <= p /\ ceiling p i n /\ ceiling count n c /\
  (adj <= 0 -> t <= c \/ n = 1).
Proof.
  intros Hc Hp. unfold chunkify.
  destruct (coarsen_spec count p t (S (Z.to_nat p)) (1, p) Hc Hp (sound_first p Hp) ltac:(cbn [fst]; lia)) as (s & -> & Hs & Ht).
  set (s' := if 0 <? adj then _ else _).
  assert (S' : sound p s').
  { subst s'. destruct (0 <? adj); [now apply adjust_up_sound|]. destruct (adj <? 0); auto. now apply adjust_down_sound. }
  exists (fst s'), (snd s'), (bin_divide count (snd s')). pose proof (sound_pos p s' S').
  split; [reflexivity|]. destruct S' as [S1 S2]. split; [exact S1|]. split; [exact S2|]. split; [apply bin_divide_spec; lia|].
  intros Ha. assert (D : snd s' <= snd s).
  { subst s'. destruct (Z.ltb_spec 0 adj); [lia|]. destruct (adj <? 0); [|lia]. now apply adjust_down_sound. }
  pose proof (bin_divide_anti count (snd s) (snd s') Hc ltac:(lia)). pose proof (sound_pos p s Hs). lia.
Qed.

(** The ranks that read are the multiples of the interval. *)
Lemma filter_multiples i n : 0 < i ->
  forall b, filter (fun r => Z.rem (Z.of_nat r) i =? 0) (seq b n) =
  filter (fun r => (r mod Z.to_nat i =? 0)%nat) (seq b n).
Proof.
  intros Hi b. apply filter_ext. intros r. rewrite Z.rem_mod_nonneg by lia.
  replace (Z.of_nat r mod i) with (Z.of_nat (r mod Z.to_nat i)%nat) by (rewrite Nat2Z.inj_mod; f_equal; lia).
  destruct (Nat.eqb_spec (r mod Z.to_nat i) 0); destruct (Z.eqb_spec (Z.of_nat (r mod Z.to_nat i)) 0); lia.
Qed.
Lemma multiples_filter (i : nat) : (0 < i)%nat -> forall n p, (p <= i * n)%nat -> (i * n < p + i)%nat ->
  filter (fun r => (r mod i =? 0)%nat) (seq 0 p) = map (fun k => (i * k)%nat) (seq 0 n).
Proof.
  intros Hi. assert (Z0 : forall b l, (forall r, (b <= r < b + l)%nat -> (r mod i)%nat <> 0%nat) -> filter (fun r => (r mod i =? 0)%nat) (seq b l) = []).
  { intros b l; revert b; induction l; intros b H; cbn [seq filter]; auto.
    destruct (Nat.eqb_spec (b mod i) 0) as [E|_]; [exfalso; apply (H b); auto; lia|]. apply IHl. intros r Hr; apply H; lia. }
  induction n; intros p H1 H2.
  - assert (p = 0)%nat by lia; subst; reflexivity.
  - rewrite seq_S, map_app; cbn [map plus].
    replace p with (i * n + (p - i * n))%nat by lia. rewrite seq_app, filter_app. rewrite (IHn (i * n)%nat) by lia. f_equal.
    cbn [plus]. replace (p - i * n)%nat with (S (p - i * n - 1)) by lia. cbn [seq filter].
    assert (E : ((i * n) mod i = 0)%nat) by (rewrite Nat.mul_comm; apply Nat.mod_mul; lia).
    rewrite E; cbn [Nat.eqb]. f_equal. apply Z0. intros r Hr Hm.
    apply Nat.mod_divides in Hm; [|lia]. destruct Hm as [q ->]. assert (n < q)%nat by nia. nia.
Qed.
Lemma readers_spec p i n : 1 <= i <= p -> ceiling p i n -> readers p i = map (fun k => i * Z.of_nat k) (seq 0 (Z.to_nat n)).
Proof.
  intros Hi Hn. unfold readers, reads.
  assert (F : forall l, filter (fun r => Z.rem r i =? 0) (map Z.of_nat l) = map Z.of_nat (filter (fun r => Z.rem (Z.of_nat r) i =? 0) l)).
  { induction l; cbn [map filter]; auto. destruct (_ =? 0); cbn [map]; now rewrite IHl. }
  rewrite F, filter_multiples by lia. unfold ceiling in Hn.
  rewrite (multiples_filter (Z.to_nat i) ltac:(lia) (Z.to_nat n)) by nia.
  rewrite map_map. apply map_ext; intros; lia.
Qed.

(** When the parts fit. *)
Lemma fits_square count n c : 1 <= n -> ceiling count n c -> (n - 1) * (n - 1) <= count -> fits count c n.
Proof. unfold ceiling, fits; intros. split; [|lia]. nia. Qed.
Lemma fits_wide count n c : 1 <= n -> ceiling count n c -> n - 1 <= c -> fits count c n.
Proof. unfold ceiling, fits; intros. nia. Qed.

Lemma ceiling_pos p i n : 1 <= i <= p -> ceiling p i n -> 1 <= n <= p.
Proof. unfold ceiling; intros; nia. Qed.
Lemma chunkify_usual count p t adj i n c : 0 <= count -> 1 <= p -> adj <= 0 -> p - 1 <= t -> chunkify count p t adj = Some (i, n, c) -> fits count c n.
Proof.
  intros Hc Hp Ha Ht H. destruct (chunkify_spec count p t adj Hc Hp) as (i' & n' & c' & E & Hi & H1 & H2 & H3).
  rewrite H in E; injection E as -> -> ->. pose proof (ceiling_pos p i' n' Hi H1).
  apply fits_wide; auto; [lia|]. destruct (H3 Ha) as [T| ->]; [lia|]. unfold ceiling in H2; lia.
Qed.

(** Parts of a list that fits. *)
Section Parts.
Variables count c n : Z.
Hypothesis Hc : 0 <= c.
Hypothesis Hf : fits count c n.
Lemma part_bounds k : 0 <= k < n -> 0 <= local_begin c k <= local_end c count k /\ local_end c count k <= count.
Proof. unfold fits, local_begin, local_end in *; nia. Qed.
Lemma parts_concat {A} (l : list A) : len l = count -> concat (map (part c l) (seq 0 (Z.to_nat n))) = l.
Proof.
  intros Hl. assert (G : forall k, (k <= Z.to_nat n)%nat -> concat (map (part c l) (seq 0 k)) = firstn (Z.to_nat c * k) l).
  { induction k; intros Hk; [rewrite Nat.mul_0_r; reflexivity|].
    rewrite seq_S, map_app, concat_app, IHk by lia. cbn [map concat plus]. rewrite app_nil_r. unfold part.
    replace (Z.to_nat c * S k)%nat with (Z.to_nat c * k + Z.to_nat c)%nat by lia.
    destruct (Nat.le_gt_cases (length l) (Z.to_nat c * k)) as [Hge|Hlt].
    - rewrite (skipn_all2 l) by exact Hge. rewrite firstn_nil, app_nil_r. now rewrite !firstn_all2 by lia.
    - rewrite <- (firstn_skipn (Z.to_nat c * k) l) at 3. rewrite firstn_app, firstn_firstn, firstn_length_le by lia.
      rewrite Nat.min_r by lia. do 2 f_equal. lia. }
  rewrite G by lia. apply firstn_all2. unfold fits, len in *. nia.
Qed.
Lemma part_length {A} (l : list A) k : len l = count -> 0 <= Z.of_nat k < n -> len (part c l k) = local_end c count (Z.of_nat k) - local_begin c (Z.of_nat k).
Proof.
  intros Hl Hk. pose proof (part_bounds (Z.of_nat k) Hk). unfold part, len, local_end, local_begin in *. rewrite firstn_length, skipn_length. unfold len in Hl. nia.
Qed.
End Parts.

(** Sizes that fit into an int. *)
Lemma too_big_false v : 0 <= v < 2 ^ 61 -> too_big v 8 = (2 ^ 31 - 1 <? v * 8).
Proof. intros H. unfold too_big. rewrite Z.mod_small; [reflexivity|]. split; [lia|]. change (2 ^ 64) with (2 ^ 61 * 8). lia. Qed.
Lemma too_big_negative v : - 2 ^ 31 <= v < 0 -> too_big v 8 = true.
Proof.
  intros H. unfold too_big. apply Z.ltb_lt. rewrite <- (Z_mod_plus_full (v * 8) 1 (2 ^ 64)).
  change (2 ^ 31) with 2147483648 in *. change (2 ^ 64) with 18446744073709551616. rewrite Z.mod_small; lia.
Qed.

(** Why it is no more ranks that read. *)
Lemma coarsen_least count p t fuel s s' : 0 <= count -> 1 <= p -> sound p s -> coarsen count p t fuel s = Some s' ->
  s' = s \/ exists i0 n0, sound p (i0, n0) /\ bin_divide count n0 < t /\ fst s' = Z.min (i0 * 2) p /\ snd s' < n0.
Proof.
  intros Hc Hp. revert s; induction fuel; intros s Hs; cbn [coarsen]; destruct (Z.ltb_spec (bin_divide count (snd s)) t) as [L|L]; cbn [andb]; try (intros E; injection E as <-; now left).
  - destruct (1 <? snd s); [discriminate|]. intros E; injection E as <-; now left.
  - destruct (Z.ltb_spec 1 (snd s)) as [M|M]; [|intros E; injection E as <-; now left].
    intros E. destruct (IHfuel (doubled p (fst s)) (sound_doubled p _ (proj1 Hs)) E) as [-> |H]; [|right; exact H].
    right. exists (fst s), (snd s). repeat split; try apply Hs; auto. pose proof (sound_one p s Hs M) as O. destruct Hs as [S1 S2].
    unfold doubled; cbn [snd]. pose proof (bin_divide_spec p (Z.min (fst s * 2) p) ltac:(lia) ltac:(lia)) as B. unfold ceiling in *. nia.
Qed.
Lemma chunkify_least count p t i n c : 0 <= count -> 1 <= p -> chunkify count p t 0 = Some (i, n, c) ->
  n = p \/ exists i0 n0 c0, i = Z.min (i0 * 2) p /\ 1 <= i0 <= p /\ ceiling p i0 n0 /\ n < n0 /\ ceiling count n0 c0 /\ c0 < t.
Proof.
  intros Hc Hp. unfold chunkify. destruct (coarsen count p t (S (Z.to_nat p)) (1, p)) as [s|] eqn:E; [|discriminate]. cbn [Z.ltb Z.compare]. intros X; injection X as <- <- <-.
  destruct (coarsen_least count p t _ _ _ Hc Hp (sound_first p Hp) E) as [-> |(i0 & n0 & [S1 S2] & S3 & S4 & S5)]; [now left|right]. cbn [fst snd] in *.
  exists i0, n0, (bin_divide count n0). pose proof (ceiling_pos _ _ _ S1 S2). split; [exact S4|]. split; [exact S1|]. split; [exact S2|]. split; [exact S5|]. split; [apply bin_divide_spec; lia|exact S3].
Qed.

(** The more readers, the higher the adjustment. *)
Definition up (p : Z) (s : Z * Z) : Z * Z := if snd s <? p then halved p (fst s) else s.
Definition down (p : Z) (s : Z * Z) : Z * Z := if 1 <? snd s then doubled p (fst s) else s.
Lemma adjust_up_S p a : forall s, adjust_up p (S a) s = up p (adjust_up p a s).
Proof.
  induction a as [|a IH]; intros s; [reflexivity|]. change (adjust_up p (S (S a)) s) with (if snd s <? p then adjust_up p (S a) (halved p (fst s)) else s). rewrite IH.
  change (adjust_up p (S a) s) with (if snd s <? p then adjust_up p a (halved p (fst s)) else s). unfold up at 2. destruct (snd s <? p) eqn:E; [reflexivity|]. unfold up; rewrite E; reflexivity.
Qed.
Lemma adjust_down_S p a : forall s, adjust_down p (S a) s = down p (adjust_down p a s).
Proof.
  induction a as [|a IH]; intros s; [reflexivity|]. change (adjust_down p (S (S a)) s) with (if 1 <? snd s then adjust_down p (S a) (doubled p (fst s)) else s). rewrite IH.
  change (adjust_down p (S a) s) with (if 1 <? snd s then adjust_down p a (doubled p (fst s)) else s). unfold down at 2. destruct (1 <? snd s) eqn:E; [reflexivity|]. unfold down; rewrite E; reflexivity.
Qed.
Lemma up_more p s : sound p s -> snd s <= snd (up p s).
Proof.
  intros Hs. unfold up. destruct (snd s <? p); [|lia]. destruct Hs as [H1 H2]. unfold halved; cbn [snd].
  assert (X : 1 <= Z.max (fst s / 2) 1 <= fst s) by (pose proof (Z.div_le_upper_bound (fst s) 2 (fst s)); lia).
  pose proof (bin_divide_spec p (Z.max (fst s / 2) 1)) as B. pose proof (bin_divide_spec p (fst s)) as B'. pose proof (bin_divide_anti p (fst s) (Z.max (fst s / 2) 1)) as A.
  rewrite (ceiling_unique p (fst s) (snd s) (bin_divide p (fst s))); try lia; auto. apply B'; lia.
Qed.
Lemma down_less p s : sound p s -> snd (down p s) <= snd s.
Proof. intros Hs. unfold down. destruct (1 <? snd s); [|lia]. now apply doubled_less. Qed.
Lemma chunkify_step count p t adj i n c i' n' c' : 0 <= count -> 1 <= p -> chunkify count p t adj = Some (i, n, c) -> chunkify count p t (adj + 1) = Some (i', n', c') -> n <= n'.
Proof.
  intros H1 H2. unfold chunkify. destruct (coarsen_spec count p t (S (Z.to_nat p)) (1, p) H1 H2 (sound_first p H2)) as (s & E & Hs & _); [cbn [fst]; lia|].
  rewrite E. cbv zeta. intros E1 E2. injection E1 as _ <- _. injection E2 as _ <- _.
  destruct (Z.ltb_spec 0 adj), (Z.ltb_spec 0 (adj + 1)), (Z.ltb_spec adj 0), (Z.ltb_spec (adj + 1) 0); try lia.
  - replace (Z.to_nat (adj + 1)) with (S (Z.to_nat adj)) by lia. rewrite adjust_up_S. apply up_more. now apply adjust_up_sound.
  - replace adj with 0 by lia. change (Z.to_nat (0 + 1)) with 1%nat. rewrite adjust_up_S. now apply up_more.
  - replace (Z.to_nat (- adj)) with (S (Z.to_nat (- (adj + 1)))) by lia. rewrite adjust_down_S. apply down_less. now apply adjust_down_sound.
  - replace adj with (-1) by lia. change (Z.to_nat (- -1)) with 1%nat. rewrite adjust_down_S. now apply down_less.
Qed.
Lemma chunkify_adjust count p t adj adj' i n c i' n' c' : 0 <= count -> 1 <= p -> adj <= adj' ->
  chunkify count p t adj = Some (i, n, c) -> chunkify count p t adj' = Some (i', n', c') -> n <= n' /\ c' <= c.
Proof.
  intros H1 H2 Ha E E'. assert (N : n <= n').
  { revert adj' Ha i' n' c' E'. refine (Zlt_lower_bound_ind _ adj _). intros adj' IH Ha i' n' c' E'. destruct (Z.eq_dec adj' adj) as [-> |Hn]; [rewrite E in E'; injection E' as <- <- <-; lia|].
    destruct (chunkify_spec count p t (adj' - 1) H1 H2) as (i1 & n1 & c1 & E1 & _). specialize (IH (adj' - 1) ltac:(lia) i1 n1 c1 E1).
    pose proof (chunkify_step count p t (adj' - 1) i1 n1 c1 i' n' c' H1 H2 E1) as S. replace (adj' - 1 + 1) with adj' in S by lia. specialize (S E'). lia. }
  split; [exact N|]. destruct (chunkify_spec count p t adj H1 H2) as (i1 & n1 & c1 & E1 & A1 & A2 & A3 & _). rewrite E in E1; injection E1 as <- <- <-.
  destruct (chunkify_spec count p t adj' H1 H2) as (i2 & n2 & c2 & E2 & B1 & B2 & B3 & _). rewrite E' in E2; injection E2 as <- <- <-.
  pose proof (ceiling_pos _ _ _ A1 A2). pose proof (ceiling_pos _ _ _ B1 B2).
  rewrite (ceiling_unique count n c (bin_divide count n)), (ceiling_unique count n' c' (bin_divide count n')); try lia; auto using bin_divide_anti.
  - apply bin_divide_anti; lia.
  - apply bin_divide_spec; lia.
  - apply bin_divide_spec; lia.
Qed.
Lemma chunkify_readers count p t adjust : 0 <= count -> 1 <= p -> exists i n c, chunkify count p t adjust = Some (i, n, c) /\
  1 <= i <= p /\ readers p i = map (fun k => i * Z.of_nat k) (seq 0 (Z.to_nat n)) /\ ceiling p i n /\ ceiling count n c /\ (adjust <= 0 -> t <= c \/ n = 1).
Proof.
  intros H1 H2. destruct (chunkify_spec count p t adjust H1 H2) as (i & n & c & E & A & B & C & D). exists i, n, c. repeat (split; auto using readers_spec).
Qed.
