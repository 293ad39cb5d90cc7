(** Counting the challenges with which a prover that answers them one after the other gets away with a wrong claim. *)
From Coq Require Import List Arith Lia Bool Ring Field.
From Verif Require Import Field Go Spec LSpec MCircuit SpecCircuit MSumcheck SpecSumcheck MSumPar SpecSumPar MGkr SpecGkr SpecInter
  LGrid LSumcheck4 LSumcheck5.
Import ListNotations.

Section Count.
  Context {A : Type} (eqd : forall x y : A, {x = y} + {x <> y}).

  (** If [f] maps a list into [T], with at most [d] preimages each. *)
  Lemma fibres {B} (L : list B) (f : B -> A) (T : list A) d :
    NoDup L -> (forall x, In x L -> In (f x) T) ->
    (forall t L', In t T -> NoDup L' -> (forall x, In x L' -> In x L /\ f x = t) -> length L' <= d) -> length L <= d * length T.
  Proof.
    revert L. induction T as [|t T IH]; intros L HL HT Hd.
    - destruct L as [|x L]; [apply Nat.le_0_l|destruct (HT x (or_introl eq_refl))].
    - set (p := fun x => if eqd (f x) t then true else false).
      assert (HS : length L = length (filter p L) + length (filter (fun x => negb (p x)) L)).
      { clear. induction L as [|x L IH]; [reflexivity|]. cbn [filter]. destruct (p x); cbn [negb length]; lia. }
      assert (H1 : length (filter p L) <= d).
      { apply (Hd t); [left; reflexivity|apply NoDup_filter; exact HL|]. intros x Hx. apply filter_In in Hx. destruct Hx as [Hx E].
        split; [exact Hx|]. unfold p in E. destruct (eqd (f x) t); [assumption|discriminate]. }
      assert (H2 : length (filter (fun x => negb (p x)) L) <= d * length T).
      { apply IH.
        - apply NoDup_filter. exact HL.
        - intros x Hx. apply filter_In in Hx. destruct Hx as [Hx E]. destruct (HT x Hx) as [E'|H]; [|exact H].
          unfold p in E. destruct (eqd (f x) t); [discriminate|congruence].
        - intros u L' Hu HL' H. apply (Hd u); [right; exact Hu|exact HL'|]. intros x Hx. destruct (H x Hx) as [Hi E].
          apply filter_In in Hi. tauto. }
      cbn [length]. lia.
  Qed.

  (** Finite choice and the union bound. *)
  Lemma union {B E} (L : list B) (R : E -> B -> Prop) (evs : list E) (bound : E -> nat) :
    NoDup L -> (forall x, In x L -> exists e, In e evs /\ R e x) ->
    (forall e L', In e evs -> NoDup L' -> (forall x, In x L' -> In x L /\ R e x) -> length L' <= bound e) ->
    length L <= list_sum (map bound evs).
  Proof.
    revert L. induction evs as [|e evs IH]; intros L HL HR Hb.
    - destruct L as [|x L]; [apply Nat.le_0_l|destruct (HR x (or_introl eq_refl)) as (e & [] & _)].
    - assert (HS : exists L1 L2, length L = length L1 + length L2 /\ NoDup L1 /\ NoDup L2 /\
        (forall x, In x L1 -> In x L /\ R e x) /\ (forall x, In x L2 -> In x L /\ exists e', In e' evs /\ R e' x)).
      { clear IH Hb. induction L as [|x L IH].
        - exists [], []. repeat split; try constructor; try (intros x []); intros; contradiction.
        - inversion HL as [|x' L' Hx HL']. subst.
          destruct (IH HL') as (L1 & L2 & EL & N1 & N2 & H1 & H2); [intros y Hy; apply HR; right; exact Hy|].
          destruct (HR x (or_introl eq_refl)) as (e' & [<-|He'] & Hr).
          + exists (x :: L1), L2. split; [cbn; lia|]. split; [constructor; [intros H; apply Hx, H1, H|exact N1]|]. split; [exact N2|].
            split; [intros y [<-|Hy]; [split; [left; reflexivity|exact Hr]|destruct (H1 y Hy); split; [right|]; assumption]|].
            intros y Hy. destruct (H2 y Hy). split; [right|]; assumption.
          + exists L1, (x :: L2). split; [cbn; lia|]. split; [exact N1|]. split; [constructor; [intros H; apply Hx, H2, H|exact N2]|].
            split; [intros y Hy; destruct (H1 y Hy); split; [right|]; assumption|].
            intros y [<-|Hy]; [split; [left; reflexivity|exists e'; auto]|destruct (H2 y Hy); split; [right|]; assumption]. }
      destruct HS as (L1 & L2 & E0 & N1 & N2 & H1 & H2). rewrite E0. cbn [map list_sum fold_right].
      apply Nat.add_le_mono.
      + apply Hb; [left; reflexivity|exact N1|exact H1].
      + apply IH; [exact N2|intros x Hx; apply H2; exact Hx|]. intros e' L' He' HL' H. apply Hb; [right; exact He'|exact HL'|].
        intros x Hx. destruct (H x Hx) as [Hi Hr]. split; [apply H2; exact Hi|exact Hr].
  Qed.
End Count.

Section L.
  Context {F : Field}.
  Add Field FfieldInter : (f_theory F).
  Open Scope F_scope.

  Definition drop_at (i : nat) (rs : list F) : list F := firstn i rs ++ skipn (S i) rs.

  Lemma split_at (rs : list F) i : (i < length rs)%nat -> rs = firstn i rs ++ nth i rs 0 :: skipn (S i) rs.
  Proof.
    revert i. induction rs as [|r rs IH]; intros [|i] H; cbn [length] in H; try lia; [reflexivity|].
    cbn [firstn nth skipn app]. f_equal. apply IH. lia.
  Qed.

  (** The challenges at which some event happens: event [e] is decided by the challenge at [pos e], and once the earlier
      challenges are fixed at most [deg e] values of this challenge make it happen. *)
  Lemma events_bound {E} (S0 : list F) N (evs : list E) (pos deg : E -> nat) (R : E -> list F -> Prop) L :
    NoDup L -> (forall e, In e evs -> (pos e < N)%nat) ->
    (forall rs, In rs L -> In rs (grid S0 N) /\ exists e, In e evs /\ R e rs) ->
    (forall e pre xs, In e evs -> NoDup xs ->
       (forall x, In x xs -> exists rs, length rs = N /\ firstn (pos e) rs = pre /\ nth (pos e) rs 0 = x /\ R e rs) ->
       (length xs <= deg e)%nat) ->
    (length L <= list_sum (map deg evs) * length S0 ^ (N - 1))%nat.
  Proof.
    intros HL Hpos HR Hdeg.
    assert (HB : (length L <= list_sum (map (fun e => deg e * length S0 ^ (N - 1))%nat evs))%nat).
    { apply (union L R evs); [exact HL|intros rs Hrs; apply HR; exact Hrs|].
      intros e L' He HL' H. rewrite <- grid_length. pose proof (Hpos e He) as Hp.
      apply (fibres (list_eq_dec f_eq_dec) L' (drop_at (pos e))); [exact HL'| |].
      - intros rs Hrs. destruct (HR rs (proj1 (H rs Hrs))) as [Hg _]. apply grid_in in Hg. destruct Hg as [Hl Hg].
        apply grid_in. unfold drop_at. split; [rewrite app_length, firstn_length, skipn_length; lia|].
        intros y Hy. apply Hg. rewrite (split_at rs (pos e)) by lia. apply in_app_iff in Hy. apply in_app_iff.
        destruct Hy as [Hy|Hy]; [left; exact Hy|right; right; exact Hy].
      - intros t L'' Ht HL'' H2.
        assert (Hlen : forall rs, In rs L'' -> length rs = N).
        { intros rs Hrs. destruct (H2 rs Hrs) as [Hi _]. destruct (H rs Hi) as [Hi2 _]. destruct (HR rs Hi2) as [Hg _]. apply grid_in in Hg. tauto. }
        assert (Hpre : forall rs, In rs L'' -> firstn (pos e) rs = firstn (pos e) t /\ skipn (S (pos e)) rs = skipn (pos e) t).
        { intros rs Hrs. destruct (H2 rs Hrs) as [_ E2]. pose proof (Hlen rs Hrs) as Hl. unfold drop_at in E2. rewrite <- E2.
          assert (Lf : length (firstn (pos e) rs) = pos e) by (rewrite firstn_length; lia).
          rewrite firstn_app, skipn_app, Lf, Nat.sub_diag, firstn_O, app_nil_r, (firstn_all2 (firstn _ _)) by lia.
          rewrite (skipn_all2 (firstn _ _)) by lia. split; reflexivity. }
        rewrite <- (map_length (fun rs => nth (pos e) rs 0) L''). apply (Hdeg e (firstn (pos e) t)); [exact He| |].
        + clear - HL'' Hpre Hlen Hp. induction L'' as [|rs L'' IH]; [constructor|]. inversion HL'' as [|a b Hn Hd]. subst. cbn [map]. constructor.
          * intros Hin. apply in_map_iff in Hin. destruct Hin as (rs' & E' & Hin). apply Hn.
            replace rs with rs'; [exact Hin|].
            rewrite (split_at rs (pos e)) by (rewrite Hlen by (left; reflexivity); lia).
            rewrite (split_at rs' (pos e)) by (rewrite Hlen by (right; exact Hin); lia).
            destruct (Hpre rs (or_introl eq_refl)) as [-> ->]. destruct (Hpre rs' (or_intror Hin)) as [-> ->]. rewrite E'. reflexivity.
          * apply IH; [exact Hd| |]; intros x Hx; [apply Hlen|apply Hpre]; right; exact Hx.
        + intros x Hx. apply in_map_iff in Hx. destruct Hx as (rs & <- & Hrs). exists rs. split; [apply Hlen; exact Hrs|].
          split; [apply Hpre; exact Hrs|]. split; [reflexivity|]. destruct (H2 rs Hrs) as [Hi _]. apply (H rs Hi). }
    etransitivity; [exact HB|]. clear. induction evs as [|e evs IH]; [apply Nat.le_0_l|]. cbn [map list_sum fold_right] in *.
    fold (list_sum (map deg evs)) in *. fold (list_sum (map (fun e => deg e * length S0 ^ (N - 1))%nat evs)) in *. nia.
  Qed.

  Lemma transcript_length sigma (rs : list F) : length (transcript sigma rs) = length rs.
  Proof. unfold transcript. rewrite map_length, seq_length. reflexivity. Qed.
  Lemma transcript_nth sigma (rs : list F) i : (i < length rs)%nat -> nth_error (transcript sigma rs) i = Some (sigma (firstn i rs)).
  Proof.
    intros H. unfold transcript. rewrite (map_nth_error _ i (seq 0 (length rs)) (d := i)); [reflexivity|].
    rewrite (nth_error_nth' _ 0%nat) by (rewrite seq_length; lia). rewrite seq_nth by lia. reflexivity.
  Qed.

  Lemma sumcheck_count bN bG (gates : list (Gate F)) statics eq vL vR claim sigma (S0 : list F) L :
    tables_ok bG bG bN gates statics eq vL vR -> (forall g, In g gates -> degs_ok g) ->
    claim <> table_sum (2 ^ bN) (2 ^ bG) gates statics eq vL vR ->
    let n := (2 * bG + bN)%nat in
    let deg := phase_deg bG bG (maxHL gates + 1) (maxHR gates + 1) (maxHP gates + 1) in
    (forall rs, (length rs < n)%nat -> (length (sigma rs) <= S (deg (length rs)))%nat) ->
    NoDup L ->
    (forall rs, In rs L -> In rs (grid S0 n) /\ exists ch qP qL qR fin, map ch (transcript sigma rs) = rs /\
       Verify ch claim (transcript sigma rs) bN bG = Some (Accept qP qL qR fin) /\
       fin = combinator bG bG gates statics eq vL vR (qL ++ qR ++ qP)) ->
    (length L <= list_sum (map deg (seq 0 n)) * length S0 ^ (n - 1))%nat.
  Proof.
    intros HT Hg Hne n deg Hsig HL HA.
    set (tp := fun pre t => cube_sum (combinator bG bG gates statics eq vL vR) (n - S (length pre)) (pre ++ [t])).
    apply (events_bound S0 n (seq 0 n) (fun i => i) deg
      (fun i rs => (exists t, peval (sigma (firstn i rs)) t <> tp (firstn i rs) t) /\
                   peval (sigma (firstn i rs)) (nth i rs 0) = tp (firstn i rs) (nth i rs 0))); [exact HL| | |].
    - intros i Hi. apply in_seq in Hi. lia.
    - intros rs Hrs. destruct (HA rs Hrs) as [Hin (ch & qP & qL & qR & fin & Hch & HV & Hfin)]. split; [exact Hin|].
      apply grid_in in Hin. destruct Hin as [Hlen _].
      destruct (soundness ch bN bG gates statics eq vL vR claim (transcript sigma rs) qP qL qR fin HT) as (i & c & H1 & (t & H2) & H3); auto.
      { rewrite transcript_length. exact Hlen. }
      assert (Hi : (i < n)%nat).
      { rewrite <- Hlen, <- (transcript_length sigma). apply nth_error_Some. congruence. }
      assert (Hm : nth_error (map ch (transcript sigma rs)) i = Some (ch c)) by (apply map_nth_error; exact H1).
      rewrite Hch in Hm.
      assert (Hn : nth i rs 0 = ch c) by (apply nth_error_nth; exact Hm).
      rewrite transcript_nth in H1 by lia. injection H1 as <-.
      assert (Hf : map ch (firstn i (transcript sigma rs)) = firstn i rs) by (rewrite <- firstn_map, Hch; reflexivity).
      rewrite Hf in H2, H3. fold n in H2, H3.
      assert (Lf : length (firstn i rs) = i) by (rewrite firstn_length; lia).
      exists i. split; [apply in_seq; lia|]. unfold tp. rewrite Lf, Hn. split; [exists t; exact H2|exact H3].
    - intros i pre xs Hi Hnd Hx. apply in_seq in Hi. destruct xs as [|x0 xs]; [apply Nat.le_0_l|].
      destruct (Hx x0 (or_introl eq_refl)) as (rs0 & Hl0 & Hp0 & _ & (t & Ht) & _). rewrite Hp0 in Ht.
      assert (Lp : length pre = i) by (rewrite <- Hp0, firstn_length; lia).
      rewrite <- Lp at 1.
      apply (bad_challenges bN bG gates statics eq vL vR pre (sigma pre) t (x0 :: xs) HT Hg); auto.
      + fold n. lia.
      + apply Hsig. lia.
      + intros x Hin. destruct (Hx x Hin) as (rs & Hl & Hp & Hn & _ & HR). rewrite Hp, Hn in HR. exact HR.
  Qed.
End L.
