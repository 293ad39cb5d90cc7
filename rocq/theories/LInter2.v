(** The count of LInter for the whole GKR protocol. *)
From Coq Require Import List Arith Lia Bool Ring Field.
From Verif Require Import Field Go Spec LSpec MCircuit SpecCircuit MSumcheck SpecSumcheck MSumPar SpecSumPar MGkr SpecGkr SpecInter
  LGrid LSumcheck4 LSumcheck5 LGkr LGkr2 LGkr3 LSnark11 LInter.
Import ListNotations.

Lemma flat_map_length_eq {A B} (f g : A -> list B) l : (forall a, In a l -> length (f a) = length (g a)) -> length (flat_map f l) = length (flat_map g l).
Proof.
  induction l as [|a l IH]; intros H; [reflexivity|]. cbn [flat_map]. rewrite !app_length, (H a (or_introl eq_refl)), IH; [reflexivity|].
  intros b Hb. apply H. right. exact Hb.
Qed.

Section L.
  Context {F : Field}.
  Add Field FfieldInter2 : (f_theory F).
  Open Scope F_scope.

  Section Off.
    Variable rounds : nat -> nat.
    (** Where the messages of layer [j] start. *)
    Definition off (n j : nat) : nat := list_sum (map (fun i => rounds i + 1)%nat (seq (S j) (n - S j))).

    Lemma off_step n j : (S j < n)%nat -> off n j = (off n (S j) + rounds (S j) + 1)%nat.
    Proof. intros H. unfold off. replace (n - S j)%nat with (S (n - S (S j))) by lia. cbn [seq map list_sum fold_right]. fold (list_sum (map (fun i => rounds i + 1)%nat (seq (S (S j)) (n - S (S j))))). lia. Qed.

    Variables (n : nat) (pf : Proof F).
    Hypothesis Hr : forall j, (j < n)%nat -> length (nth j (SumcheckProofs pf) []) = rounds j.

    Lemma upper_length a len : (0 < a)%nat -> (a + len <= n)%nat ->
      length (flat_map (layer_messages pf) (rev (seq a len))) = list_sum (map (fun i => rounds i + 1)%nat (seq a len)).
    Proof.
      revert a. induction len as [|len IH]; intros a Ha Hn; [reflexivity|]. cbn [seq rev map list_sum fold_right]. rewrite flat_map_app, app_length.
      rewrite IH by lia. cbn [flat_map]. rewrite app_nil_r. unfold layer_messages. rewrite app_length, Hr by lia.
      destruct (Nat.ltb_spec 0 a); [|lia]. cbn [length]. fold (list_sum (map (fun i => rounds i + 1)%nat (seq (S a) len))). lia.
    Qed.

    Lemma messages_at j : (j < n)%nat -> exists pre post, messages n pf = pre ++ layer_messages pf j ++ post /\ length pre = off n j.
    Proof.
      intros Hj. exists (flat_map (layer_messages pf) (rev (seq (S j) (n - S j)))), (flat_map (layer_messages pf) (rev (seq 0 j))).
      split; [|apply upper_length; lia]. unfold messages. replace (seq 0 n) with (seq 0 j ++ j :: seq (S j) (n - S j)).
      - rewrite rev_app_distr. cbn [rev]. rewrite !flat_map_app. cbn [flat_map]. rewrite app_nil_r, app_assoc. reflexivity.
      - change (j :: seq (S j) (n - S j)) with (seq (0 + j) (S (n - S j))). rewrite <- seq_app. f_equal. lia.
    Qed.

    Lemma messages_length : (0 < n)%nat -> length (messages n pf) = (off n 0 + rounds 0)%nat.
    Proof.
      intros Hn. unfold messages, off. replace n with (S (n - 1)) at 1 by lia. cbn [seq rev]. rewrite flat_map_app, app_length, upper_length by lia.
      replace (n - 1)%nat with (n - 1)%nat by lia. cbn [flat_map]. rewrite app_nil_r. unfold layer_messages. rewrite Nat.ltb_irrefl, app_nil_r, Hr by lia. reflexivity.
    Qed.

    Lemma off_anti j i : (i <= j)%nat -> (j < n)%nat -> (off n j + rounds j <= off n i + rounds i)%nat.
    Proof.
      intros Hij Hj. induction j as [|j IH]; [replace i with 0%nat by lia; reflexivity|]. destruct (Nat.eq_dec i (S j)) as [->|Hne]; [reflexivity|].
      pose proof (off_step n j Hj). specialize (IH ltac:(lia) ltac:(lia)). lia.
    Qed.

    (** The challenges of a layer, in terms of all the challenges. *)
    Variables (ch : list F -> F) (rs : list F).
    Hypothesis Hch : map ch (messages n pf) = rs.

    Lemma chal_seg j : (j < n)%nat -> chal ch pf j = firstn (rounds j) (skipn (off n j) rs).
    Proof.
      intros Hj. destruct (messages_at j Hj) as (pre & post & E & Lp). rewrite <- Hch, E, !map_app. unfold chal, layer_messages.
      rewrite skipn_app, map_length, Lp, Nat.sub_diag, skipn_all2 by (rewrite map_length; lia). cbn [skipn app].
      rewrite map_app, <- app_assoc, firstn_app, map_length, Hr, Nat.sub_diag, firstn_O, app_nil_r, firstn_all2; auto. rewrite map_length, Hr; auto.
    Qed.

    Lemma lam_at j : (0 < j)%nat -> (j < n)%nat -> nth_error (messages n pf) (off n j + rounds j) = Some [nth j (ClaimsLeft pf) 0; nth j (ClaimsRight pf) 0] /\
      nth (off n j + rounds j) rs 0 = ch [nth j (ClaimsLeft pf) 0; nth j (ClaimsRight pf) 0].
    Proof.
      intros H0 Hj. destruct (messages_at j Hj) as (pre & post & E & Lp).
      assert (En : nth_error (messages n pf) (off n j + rounds j) = Some [nth j (ClaimsLeft pf) 0; nth j (ClaimsRight pf) 0]).
      { rewrite E. rewrite nth_error_app2, Lp by lia. replace (off n j + rounds j - off n j)%nat with (rounds j) by lia.
        unfold layer_messages. destruct (Nat.ltb_spec 0 j); [|lia]. rewrite <- app_assoc, nth_error_app2 by (rewrite Hr; auto). rewrite Hr, Nat.sub_diag by exact Hj. reflexivity. }
      split; [exact En|]. apply nth_error_nth. rewrite <- Hch. apply map_nth_error. exact En.
    Qed.

    Lemma round_at j i p : (j < n)%nat -> nth_error (nth j (SumcheckProofs pf) []) i = Some p ->
      nth_error (messages n pf) (off n j + i) = Some p /\ nth (off n j + i) rs 0 = ch p /\ (i < rounds j)%nat.
    Proof.
      intros Hj Hp. destruct (messages_at j Hj) as (pre & post & E & Lp).
      assert (Hi : (i < rounds j)%nat) by (rewrite <- Hr by exact Hj; apply nth_error_Some; congruence).
      assert (En : nth_error (messages n pf) (off n j + i) = Some p).
      { rewrite E. rewrite nth_error_app2, Lp by lia. replace (off n j + i - off n j)%nat with i by lia.
        unfold layer_messages. rewrite <- app_assoc, nth_error_app1 by (rewrite Hr; auto). exact Hp. }
      split; [exact En|]. split; [|exact Hi]. apply nth_error_nth. rewrite <- Hch. apply map_nth_error. exact En.
    Qed.
  End Off.

  Lemma seg_prefix (rs rs' : list F) a len i : (a + len <= i)%nat -> firstn i rs = firstn i rs' -> firstn len (skipn a rs) = firstn len (skipn a rs').
  Proof.
    intros H E. rewrite !firstn_skipn_comm. f_equal.
    replace (a + len)%nat with (Nat.min (a + len) i) by lia. rewrite <- !firstn_firstn, E. reflexivity.
  Qed.
  Lemma nth_prefix (rs rs' : list F) a i : (a < i)%nat -> firstn i rs = firstn i rs' -> nth a rs 0 = nth a rs' 0.
  Proof. intros H E. rewrite <- (nth_firstn rs i a 0 H), <- (nth_firstn rs' i a 0 H), E. reflexivity. Qed.

  Lemma list_sum_flat {A} (g : A -> list nat) l : list_sum (flat_map g l) = list_sum (map (fun x => list_sum (g x)) l).
  Proof. induction l as [|x l IH]; [reflexivity|]. cbn [flat_map map]. rewrite list_sum_app, IH. reflexivity. Qed.

  Lemma map_nth_seq {A B} (g : A -> B) (l : list A) d : map (fun j => g (nth j l d)) (seq 0 (length l)) = map g l.
  Proof.
    induction l as [|x l IH]; [reflexivity|]. cbn [length seq map nth]. f_equal. rewrite <- seq_shift, map_map. exact IH.
  Qed.

  Lemma list_sum_positive n : list_sum (map (fun j => if (0 <? j)%nat then 1%nat else 0%nat) (seq 0 n)) = (n - 1)%nat.
  Proof.
    destruct n as [|n]; [reflexivity|]. cbn [seq map list_sum fold_right]. rewrite Nat.ltb_irrefl.
    assert (H : forall a, (0 < a)%nat -> list_sum (map (fun j => if (0 <? j)%nat then 1%nat else 0%nat) (seq a n)) = n).
    { induction n as [|n IH]; intros a Ha; [reflexivity|]. cbn [seq map]. destruct (Nat.ltb_spec 0 a); [|lia].
      change (1 + list_sum (map (fun j => if (0 <? j)%nat then 1%nat else 0%nat) (seq (S a) n)) = S n)%nat. rewrite IH by lia. reflexivity. }
    fold (list_sum (map (fun j => if (0 <? j)%nat then 1%nat else 0%nat) (seq 1 n))). rewrite H by lia. lia.
  Qed.

  Lemma list_sum_add {A} (g h : A -> nat) l : list_sum (map (fun x => g x + h x)%nat l) = (list_sum (map g l) + list_sum (map h l))%nat.
  Proof. induction l as [|x l IH]; [reflexivity|]. cbn [map list_sum fold_right] in *. unfold list_sum in IH. rewrite IH. lia. Qed.

  Section Circ.
    Variables m k b : nat.
    Variable c : list (Layer F).
    Variable inputs : list (list F).
    Variable a : list (list (list F)).
    Hypothesis Hlayers : forall l, In l c -> layer_ok l.
    Hypothesis Hfits : fits b c.
    Hypothesis Hin : chunked k m b inputs.
    Hypothesis Ha : assignment_of c (2 ^ m) inputs a.
    Variables q qP : list F.
    Hypothesis HqP : length qP = (m + k)%nat.

    Local Notation lay j := (nth j c (NewLayer [])).
    Local Notation bN := (m + k)%nat.
    Local Notation n := (length c).
    Local Notation TV l j := (glued (lBGInputs l) m (nth j a [])).
    Definition rnds (j : nat) : nat := (2 * lBGInputs (lay j) + bN)%nat.

    Definition gkr_events : list (nat * nat) :=
      flat_map (fun j => map (pair j) (seq 0 (rnds j)) ++ (if (0 <? j)%nat then [(j, rnds j)] else [])) (seq 0 n).
    Definition ev_pos (e : nat * nat) : nat := (off rnds n (fst e) + snd e)%nat.
    Definition ev_deg (e : nat * nat) : nat := if (snd e <? rnds (fst e))%nat then layer_round_degree (lay (fst e)) (snd e) else 1%nat.

    Lemma events_degree : list_sum (map ev_deg gkr_events) = total_degree bN c.
    Proof.
      unfold gkr_events, total_degree. rewrite flat_map_concat_map, concat_map, map_map, <- flat_map_concat_map, list_sum_flat.
      rewrite (map_ext _ (fun j => layer_degree bN (lay j) + (if (0 <? j)%nat then 1 else 0))%nat).
      - rewrite list_sum_add, list_sum_positive, map_nth_seq. reflexivity.
      - intros j. rewrite map_app, list_sum_app, map_map. f_equal.
        + unfold layer_degree. fold (rnds j). f_equal. apply map_ext_in. intros i Hi. apply in_seq in Hi. unfold ev_deg. cbn [fst snd].
          destruct (Nat.ltb_spec i (rnds j)); [reflexivity|lia].
        + destruct (0 <? j)%nat; [|reflexivity]. cbn [map]. unfold ev_deg. cbn [fst snd]. rewrite Nat.ltb_irrefl. reflexivity.
    Qed.

    Lemma count_total : (0 < n)%nat -> challenge_count bN c = (off rnds n 0 + rnds 0)%nat.
    Proof.
      intros Hn. unfold challenge_count. rewrite <- (map_nth_seq (fun l => 2 * lBGInputs l + bN)%nat c (NewLayer [])).
      unfold off. replace n with (S (n - 1)) at 1 by lia. cbn [seq map list_sum fold_right].
      fold (list_sum (map (fun j => 2 * lBGInputs (lay j) + bN)%nat (seq 1 (n - 1)))). fold (rnds 0).
      rewrite (map_ext (fun j => 2 * lBGInputs (lay j) + bN)%nat rnds) by reflexivity.
      rewrite (list_sum_add rnds (fun _ => 1%nat)). replace (n - 1)%nat with (list_sum (map (fun _ : nat => 1%nat) (seq 1 (n - 1)))) at 2; [lia|].
      generalize 1%nat at 2. intros s. generalize (n - 1)%nat. intros len. revert s. induction len as [|len IH]; intros s; [reflexivity|]. cbn [seq map list_sum fold_right].
      fold (list_sum (map (fun _ : nat => 1%nat) (seq (S s) len))). rewrite IH. reflexivity.
    Qed.

    Lemma event_in e : In e gkr_events -> (fst e < n)%nat /\ (snd e < rnds (fst e) \/ snd e = rnds (fst e) /\ 0 < fst e)%nat.
    Proof.
      intros H. apply in_flat_map in H. destruct H as (j & Hj & H). apply in_seq in Hj. apply in_app_iff in H. destruct H as [H|H].
      - apply in_map_iff in H. destruct H as (i & <- & Hi). apply in_seq in Hi. cbn [fst snd]. lia.
      - destruct (Nat.ltb_spec 0 j); [|destruct H]. destruct H as [<-|[]]. cbn [fst snd]. lia.
    Qed.

    Lemma in_event j i : (j < n)%nat -> (i < rnds j \/ i = rnds j /\ 0 < j)%nat -> In (j, i) gkr_events.
    Proof.
      intros Hj Hi. apply in_flat_map. exists j. split; [apply in_seq; lia|]. apply in_app_iff. destruct Hi as [Hi|[-> Hi]].
      - left. apply in_map. apply in_seq. lia.
      - right. destruct (Nat.ltb_spec 0 j); [left; reflexivity|lia].
    Qed.

    Lemma lay_ok j : (j < n)%nat -> nth_error c j = Some (lay j).
    Proof. intros H. apply nth_error_nth'. exact H. Qed.

    Variable pf : list F -> Proof F.
    Variable S0 : list F.
    Local Notation N := (challenge_count bN c).
    Hypothesis Hcausal : causal n N pf.
    Hypothesis Hdeg : forall rs, length rs = N -> degrees_ok bN c (pf rs).

    Lemma rounds_len rs : length rs = N -> forall j, (j < n)%nat -> length (nth j (SumcheckProofs (pf rs)) []) = rnds j.
    Proof. intros Hrs j Hj. apply (Hdeg rs Hrs j (lay j)). apply lay_ok. exact Hj. Qed.

    (** What the run on [rs] multiplies, as a function of the challenges. *)
    Definition run_of (rs : list F) (j : nat) : list F -> F :=
      let l := lay j in
      let bo := lBGOutputs l in
      let up := firstn (rnds (S j)) (skipn (off rnds n (S j)) rs) in
      let lam := nth (off rnds n (S j) + rnds (S j)) rs 0 in
      if (S j =? n)%nat then layer_poly l (fun o => chi (to_bits bo o) q) qP (TV l j)
      else layer_poly l (fun o => chi (to_bits bo o) (firstn bo up) + lam * chi (to_bits bo o) (firstn bo (skipn bo up))) (skipn (bo + bo) up) (TV l j).

    Lemma run_of_ok ch rs j : length rs = N -> map ch (messages n (pf rs)) = rs -> (j < n)%nat ->
      run_poly_from ch (pf rs) n q qP j (lay j) (TV (lay j) j) = run_of rs j.
    Proof.
      intros Hrs Hch Hj. unfold run_poly_from, run_of. destruct (Nat.eqb_spec (S j) n) as [E|E]; [reflexivity|].
      assert (Hj' : (S j < n)%nat) by lia.
      unfold ptL, ptR, ptP. rewrite (chal_seg rnds n (pf rs) (rounds_len rs Hrs) ch rs Hch (S j) Hj').
      destruct (lam_at rnds n (pf rs) (rounds_len rs Hrs) ch rs Hch (S j) ltac:(lia) Hj') as [_ <-]. reflexivity.
    Qed.

    Lemma run_of_prefix rs rs' j i : (off rnds n j <= i)%nat -> (j < n)%nat -> firstn i rs = firstn i rs' -> run_of rs j = run_of rs' j.
    Proof.
      intros Hi Hj E. unfold run_of. destruct (Nat.eqb_spec (S j) n) as [En|En]; [reflexivity|].
      pose proof (off_step rnds n j ltac:(lia)) as Ho.
      rewrite (seg_prefix rs rs' (off rnds n (S j)) (rnds (S j)) i ltac:(lia) E), (nth_prefix rs rs' (off rnds n (S j) + rnds (S j)) i ltac:(lia) E). reflexivity.
    Qed.

    Definition bad_event (e : nat * nat) (rs : list F) : Prop :=
      let j := fst e in let i := snd e in
      exists ch : list F -> F, map ch (messages n (pf rs)) = rs /\
        ((exists p, nth_error (nth j (SumcheckProofs (pf rs)) []) i = Some p /\
           let tp t := cube_sum (run_poly_from ch (pf rs) n q qP j (lay j) (TV (lay j) j)) (rnds j - S i) (map ch (firstn i (nth j (SumcheckProofs (pf rs)) [])) ++ [t]) in
           (exists t, peval p t <> tp t) /\ peval p (ch p) = tp (ch p)) \/
         i = rnds j /\ lambda_collision ch (nth j (ClaimsLeft (pf rs)) 0) (nth j (ClaimsRight (pf rs)) 0)
           (mle (TV (lay j) j) (ptL ch (pf rs) (lBGInputs (lay j)) j ++ ptP ch (pf rs) (lBGInputs (lay j)) j))
           (mle (TV (lay j) j) (ptR ch (pf rs) (lBGInputs (lay j)) j ++ ptP ch (pf rs) (lBGInputs (lay j)) j))).

    Lemma collision_event ch rs j : length rs = N -> map ch (messages n (pf rs)) = rs -> collision_from ch (pf rs) c m k a q qP j ->
      exists e, In e gkr_events /\ bad_event e rs.
    Proof.
      intros Hrs Hch (l & Hl & HC). assert (Hj : (j < n)%nat) by (apply nth_error_Some; congruence).
      rewrite (lay_ok j Hj) in Hl. injection Hl as <-. cbv zeta in HC. destruct HC as [(i & p & Hi & Hp & HC)|[H0 HC]].
      - exists (j, i). split; [apply in_event; [exact Hj|left; exact Hi]|]. exists ch. split; [exact Hch|]. left. exists p. split; [exact Hp|exact HC].
      - exists (j, rnds j). split; [apply in_event; [exact Hj|right; split; [reflexivity|exact H0]]|]. exists ch. split; [exact Hch|]. right. split; [reflexivity|exact HC].
    Qed.

    Lemma event_bound e pre xs : In e gkr_events -> NoDup xs ->
      (forall x, In x xs -> exists rs, length rs = N /\ firstn (ev_pos e) rs = pre /\ nth (ev_pos e) rs 0 = x /\ bad_event e rs) ->
      (length xs <= ev_deg e)%nat.
    Proof.
      intros He Hnd Hx. destruct xs as [|x0 xs]; [apply Nat.le_0_l|].
      destruct (event_in e He) as [Hj Hi]. destruct e as [j i]. unfold ev_pos, ev_deg in *. cbn [fst snd] in *.
      assert (HposN : (off rnds n j + i < N)%nat).
      { rewrite count_total by lia. pose proof (off_anti rnds n j 0 ltac:(lia) Hj). destruct Hi as [Hi|[-> Hi]]; [lia|].
        destruct j as [|j]; [lia|]. pose proof (off_step rnds n j Hj). pose proof (off_anti rnds n j 0 ltac:(lia) ltac:(lia)). lia. }
      destruct (Hx x0 (or_introl eq_refl)) as (rs0 & Hl0 & Hp0 & Hn0 & (ch0 & Hch0 & Hb0)). cbn [fst snd] in Hb0.
      pose proof (lay_ok j Hj) as HL. pose proof (Hlayers _ (nth_error_In _ _ HL)) as Hlok.
      assert (HLs : forall l, In l c -> wf_layer l /\ gates_once l) by (intros l Hl; destruct (Hlayers l Hl) as (X & Y & _); split; assumption).
      destruct (tv_layer m k b c inputs a HLs Hfits Hin Ha j (lay j) HL) as [_ HTV].
      destruct Hi as [Hi|[-> H0]].
      - destruct (Nat.ltb_spec i (rnds j)); [|lia].
        destruct Hb0 as [(p0 & Hpp0 & (t & Ht) & _)|[E _]]; [|lia].
        rewrite (run_of_ok ch0 rs0 j Hl0 Hch0 Hj) in Ht.
        set (hd := firstn i (firstn (rnds j) (skipn (off rnds n j) rs0))).
        assert (Hseg : forall ch rs, length rs = N -> map ch (messages n (pf rs)) = rs ->
          map ch (firstn i (nth j (SumcheckProofs (pf rs)) [])) = firstn i (firstn (rnds j) (skipn (off rnds n j) rs))).
        { intros ch rs Hrs Hch. rewrite <- firstn_map. f_equal. exact (chal_seg rnds n (pf rs) (rounds_len rs Hrs) ch rs Hch j Hj). }
        rewrite (Hseg ch0 rs0 Hl0 Hch0) in Ht. fold hd in Ht.
        assert (Lhd : length hd = i).
        { unfold hd. rewrite !firstn_length, skipn_length, Hl0. pose proof (off_anti rnds n j 0 ltac:(lia) Hj). rewrite count_total by lia. lia. }
        assert (Hall : forall x, In x (x0 :: xs) -> peval p0 x = cube_sum (run_of rs0 j) (rnds j - S i) (hd ++ [x])).
        { intros x Hxin. destruct (Hx x Hxin) as (rs & Hl & Hp & Hn & (ch & Hch & Hb)). cbn [fst snd] in Hb.
          destruct Hb as [(p & Hpp & _ & Hc)|[E _]]; [|lia].
          destruct (round_at rnds n (pf rs) (rounds_len rs Hl) ch rs Hch j i p Hj Hpp) as (M & V & _).
          destruct (round_at rnds n (pf rs0) (rounds_len rs0 Hl0) ch0 rs0 Hch0 j i p0 Hj Hpp0) as (M0 & _ & _).
          assert (Epre : firstn (off rnds n j + i) rs = firstn (off rnds n j + i) rs0) by congruence.
          rewrite (Hcausal _ rs rs0 HposN Hl Hl0 Epre), M0 in M. injection M as <-.
          rewrite Hn in V. rewrite V, Hc, (run_of_ok ch rs j Hl Hch Hj), (Hseg ch rs Hl Hch).
          rewrite (run_of_prefix rs rs0 j (off rnds n j + i) ltac:(lia) Hj Epre). f_equal. f_equal. unfold hd. rewrite !firstn_firstn, Nat.min_l by lia.
          apply (seg_prefix rs rs0 (off rnds n j) i _ (le_n _) Epre). }
        assert (Hlen0 : (length p0 <= S (layer_round_degree (lay j) i))%nat) by (apply (Hdeg rs0 Hl0 j (lay j) HL); exact Hpp0).
        unfold layer_round_degree in *. rewrite <- Lhd in Hlen0, Ht, Hall, Hi |- *. clearbody hd.
        unfold run_of in Ht, Hall. destruct (Nat.eqb_spec (S j) n) as [En|En].
        + apply (layer_few_collisions bN (lay j) _ qP (TV (lay j) j) hd p0 t (x0 :: xs) Hlok HqP HTV Hi Hlen0 Ht Hnd Hall).
        + refine (layer_few_collisions bN (lay j) _ _ (TV (lay j) j) hd p0 t (x0 :: xs) Hlok _ HTV Hi Hlen0 Ht Hnd Hall).
          pose proof (fits_next c b j (lay j) (lay (S j)) Hfits HL (lay_ok (S j) ltac:(lia))) as Hb.
          rewrite skipn_length, firstn_length, skipn_length, Hl0, count_total by lia.
          pose proof (off_anti rnds n (S j) 0 ltac:(lia) ltac:(lia)) as Hoa. assert (Hrj : rnds (S j) = (2 * lBGInputs (lay (S j)) + bN)%nat) by reflexivity. lia.
      - rewrite Nat.ltb_irrefl.
        assert (Hcl : forall x, In x (x0 :: xs) -> x = x0); [|].
        { intros x Hxin. destruct (Hx x Hxin) as (rs & Hl & Hp & Hn & (ch & Hch & Hb)). cbn [fst snd] in Hb.
          destruct Hb0 as [(p0 & Hpp0 & _)|[_ HC0]].
          { destruct (round_at rnds n (pf rs0) (rounds_len rs0 Hl0) ch0 rs0 Hch0 j _ p0 Hj Hpp0) as (_ & _ & X). lia. }
          destruct Hb as [(p & Hpp & _)|[_ HC]].
          { destruct (round_at rnds n (pf rs) (rounds_len rs Hl) ch rs Hch j _ p Hj Hpp) as (_ & _ & X). lia. }
          destruct (lam_at rnds n (pf rs) (rounds_len rs Hl) ch rs Hch j H0 Hj) as [M V].
          destruct (lam_at rnds n (pf rs0) (rounds_len rs0 Hl0) ch0 rs0 Hch0 j H0 Hj) as [M0 V0].
          assert (Epre : firstn (off rnds n j + rnds j) rs = firstn (off rnds n j + rnds j) rs0) by congruence.
          rewrite (Hcausal _ rs rs0 HposN Hl Hl0 Epre), M0 in M. injection M as Ecl Ecr.
          assert (Echal : chal ch (pf rs) j = chal ch0 (pf rs0) j).
          { rewrite (chal_seg rnds n (pf rs) (rounds_len rs Hl) ch rs Hch j Hj), (chal_seg rnds n (pf rs0) (rounds_len rs0 Hl0) ch0 rs0 Hch0 j Hj).
            apply (seg_prefix rs rs0 _ _ _ (le_n _) Epre). }
          unfold lambda_collision, ptL, ptR, ptP in HC, HC0. rewrite Echal in HC. rewrite <- V in HC. rewrite <- V0 in HC0.
          rewrite Hn in HC. rewrite Hn0 in HC0. destruct HC as [Hne HC]. destruct HC0 as [_ HC0]. rewrite <- Ecl, <- Ecr in HC, Hne.
          exact (LGkr5.lambda_unique _ _ _ _ _ _ Hne HC HC0). }
        destruct xs as [|x1 xs]; [reflexivity|]. exfalso. inversion Hnd as [|y ys Hni _]. subst. apply Hni. left. apply Hcl. right. left. reflexivity.
    Qed.

    Lemma collisions_count L : NoDup L ->
      (forall rs, In rs L -> In rs (grid S0 N) /\ exists ch, map ch (messages n (pf rs)) = rs /\ exists j, collision_from ch (pf rs) c m k a q qP j) ->
      (length L <= total_degree bN c * length S0 ^ (N - 1))%nat.
    Proof.
      intros HL HR. rewrite <- events_degree. apply (events_bound S0 N gkr_events ev_pos ev_deg bad_event L HL).
      - intros e He. destruct (event_in e He) as [Hj Hi]. unfold ev_pos. rewrite count_total by lia.
        destruct e as [j i]. cbn [fst snd] in *. pose proof (off_anti rnds n j 0 ltac:(lia) Hj). destruct Hi as [Hi|[-> Hi]]; [lia|].
        destruct j as [|j]; [lia|]. pose proof (off_step rnds n j Hj). pose proof (off_anti rnds n j 0 ltac:(lia) ltac:(lia)). lia.
      - intros rs Hrs. destruct (HR rs Hrs) as [Hg (ch & Hch & j & HC)]. split; [exact Hg|]. apply grid_in in Hg. apply (collision_event ch rs j); tauto.
      - exact event_bound.
    Qed.
  End Circ.
End L.
