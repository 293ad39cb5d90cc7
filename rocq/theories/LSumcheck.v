(** Lemmas about the sum-check prover: what the evaluation loops compute. *)
From Coq Require Import List Arith ZArith Lia Bool Ring Field.
From Verif Require Import Field Go MCommon Spec MPoly LSpec LCommon LPoly LEffect LPoly2 MCircuit SpecCircuit LCircuit LCircuit2 MSumcheck.
Import ListNotations.

Lemma combine_seq_map {A} (l : list A) d a :
  combine (seq a (length l)) l = map (fun i => (a + i, nth i l d)) (seq 0 (length l)).
Proof.
  revert a; induction l as [|x l IH]; intros a; [reflexivity|].
  cbn [length seq combine map nth]. rewrite Nat.add_0_r. f_equal. rewrite IH.
  rewrite <- seq_shift, map_map. apply map_ext. intros i. cbn [nth]. rewrite Nat.add_succ_r. reflexivity.
Qed.

Lemma foldM_map {A B S} (f : S -> B -> option S) (h : A -> B) l s :
  foldM f (map h l) s = foldM (fun s a => f s (h a)) l s.
Proof. revert s; induction l as [|a l IH]; intros s; [reflexivity|]. simpl. destruct (f s (h a)); auto. Qed.

Section S.
  Context {F : Field}.
  Add Field FfieldLSumcheck : (f_theory F).
  Open Scope F_scope.

  Lemma eff_range {S K A} (wf : S -> Prop) (rd : S -> K -> F) (f : S -> nat * A -> option S) (E : nat -> K -> F) l d :
    (forall i, (i < length l)%nat -> has_effect wf rd (fun s => f s (i, nth i l d)) (E i)) ->
    has_effect wf rd (fun s => foldM f (combine (seq 0 (length l)) l) s) (fun k => sumn (length l) (fun i => E i k)).
  Proof.
    intros H. apply (eff_fun_ext _ _ (fun s => forN (length l) (fun s i => f s (i, nth i l d)) s)).
    - intros s _. rewrite (combine_seq_map l d 0), foldM_map. reflexivity.
    - apply eff_forN. exact H.
  Qed.

  (** Running some code first that does not change what is read. *)
  Lemma eff_before {S K} (wf wf' : S -> Prop) (rd : S -> K -> F) (f g : S -> option S) E :
    (forall s, wf s -> exists s1, f s = Some s1 /\ wf' s1 /\ forall k, rd s1 k = rd s k) ->
    (forall s, wf' s -> wf s) ->
    has_effect wf' rd g E ->
    has_effect wf rd (fun s => s1 <- f s ;; g s1) E.
  Proof.
    intros Hf Hw Hg s Hs. destruct (Hf s Hs) as (s1 & A1 & W1 & R1). rewrite A1.
    destruct (Hg s1 W1) as (s2 & A2 & W2 & R2). exists s2. split; [exact A2|]. split; [apply Hw; exact W2|].
    intros k. rewrite R2, R1. reflexivity.
  Qed.

  Lemma sumn_delta2 m g l r (f : nat -> nat -> F) : (l < m)%nat -> (r < g)%nat ->
    sumn m (fun a => sumn g (fun b => if (l * g + r =? a * g + b)%nat then f a b else 0)) = f l r.
  Proof.
    intros Hl Hr.
    rewrite (sumn_ext _ _ (fun a => if (a =? l)%nat then f a r else 0)).
    - apply (sumn_delta m l (fun a => f a r)). exact Hl.
    - intros a Ha. destruct (Nat.eqb_spec a l) as [->|Hne].
      + rewrite (sumn_ext _ _ (fun b => if (b =? r)%nat then f l b else 0)).
        * apply (sumn_delta g r (fun b => f l b)). exact Hr.
        * intros b Hb. destruct (Nat.eqb_spec (l * g + r) (l * g + b)), (Nat.eqb_spec b r); try reflexivity; lia.
      + apply sumn_zero. intros b Hb. destruct (Nat.eqb_spec (l * g + r) (a * g + b)) as [He|]; [|reflexivity].
        apply mul_add_inj in He; lia.
  Qed.

  Lemma fillLine_spec nE (buf : list F) a d : length buf = nE -> (0 < nE)%nat ->
    fillLine nE buf a d = Some (map (fun t => a + fnat t * d) (seq 0 nE)).
  Proof.
    intros HL Hn. unfold fillLine, forRange. rewrite set_some by lia.
    destruct (foldM_seq_inv (fun k b => length b = nE /\
      forall t, (t < k + 1)%nat -> nth t b 0 = a + fnat t * d)
      (fun buf t => x <- get buf (t - 1) ;; set buf t (x + d)) 1 (nE - 1) (upd buf 0 a)) as (b & E & Hb & Ht).
    - split; [rewrite upd_length; exact HL|]. intros t Ht. replace t with 0%nat by lia.
      rewrite nth_upd_same by lia. simpl. ring.
    - intros k b Hk [Hb Ht]. rewrite (get_nth b _ 0) by lia. rewrite set_some by lia.
      eexists. split; [reflexivity|]. split; [rewrite upd_length; exact Hb|].
      intros t Htk. rewrite nth_upd by lia. destruct (Nat.eqb_spec t (1 + k)) as [->|].
      + replace (1 + k - 1)%nat with k by lia. rewrite Ht by lia. simpl. ring.
      + apply Ht. lia.
    - rewrite E. f_equal. apply (map_seq_ext 0); [exact Hb|]. intros i Hi. apply Ht. lia.
  Qed.

  Lemma foldv_at (t : list F) x i : (i < length t / 2)%nat ->
    nth i (foldv t x) 0 = nth i t 0 + x * (nth (length t / 2 + i) t 0 - nth i t 0).
  Proof. intros H. unfold foldv. rewrite nth_map_seq by exact H. reflexivity. Qed.

  Lemma fillLine_foldv nE (buf t : list F) i : length buf = nE -> (0 < nE)%nat -> (i < length t / 2)%nat ->
    fillLine nE buf (nth i t 0) (nth (length t / 2 + i) t 0 - nth i t 0)
    = Some (map (fun k => nth i (foldv t (fnat k)) 0) (seq 0 nE)).
  Proof.
    intros H1 H2 H3. rewrite fillLine_spec by assumption. f_equal. apply map_ext. intros k.
    rewrite foldv_at by exact H3. reflexivity.
  Qed.

  Definition nzv (size : nat) (tab : list F) : list bool :=
    map (fun h => negb ((nth h tab 0 =? 0) && (nth (length tab / 2 + h) tab 0 - nth h tab 0 =? 0))) (seq 0 size).
  Definition evv (nE size : nat) (tab : list F) : list (list F) :=
    map (fun h => map (fun k => nth h (foldv tab (fnat k)) 0) (seq 0 nE)) (seq 0 size).

  Lemma evalStatic_spec nE size (tab : list F) : (0 < nE)%nat -> (size <= length tab / 2)%nat ->
    evalStatic nE size tab = Some (nzv size tab, evv nE size tab).
  Proof.
    intros Hn Hs. unfold evalStatic. rewrite FunctionEvals_spec.
    pose proof (half_le (length tab)) as Hh.
    rewrite (mapM_some _ (fun h => negb ((nth h tab 0 =? 0) && (nth (length tab / 2 + h) tab 0 - nth h tab 0 =? 0)))).
    - rewrite (mapM_some _ (fun h => map (fun k => nth h (foldv tab (fnat k)) 0) (seq 0 nE))); [reflexivity|].
      intros h Hin. apply in_seq in Hin. rewrite (get_nth tab h 0) by lia.
      rewrite (get_nth _ h 0) by (rewrite map_length, seq_length; lia).
      rewrite nth_map_seq by lia. apply fillLine_foldv; [apply repeat_length|exact Hn|lia].
    - intros h Hin. apply in_seq in Hin. rewrite (get_nth tab h 0) by lia.
      rewrite (get_nth _ h 0) by (rewrite map_length, seq_length; lia).
      rewrite nth_map_seq by lia. reflexivity.
  Qed.

  Lemma nzv_false size (tab : list F) h x : (size <= length tab / 2)%nat -> (h < size)%nat ->
    nth h (nzv size tab) false = false -> nth h (foldv tab x) 0 = 0.
  Proof.
    intros Hs Hh H. unfold nzv in H. rewrite nth_map_seq in H by exact Hh.
    apply negb_false_iff, andb_true_iff in H. destruct H as [H1 H2].
    apply feqb_eq in H1, H2. rewrite foldv_at by lia. rewrite H2, H1. ring.
  Qed.

  (** ** Combination of the split values *)
  Lemma combineSplit_spec nG H nE (sp ev : list (list (list F))) :
    wf3 nG H nE sp -> wf3 nG H nE ev ->
    combineSplit nE sp ev = Some (map (fun t => sumn nG (fun i => sumn H (fun h =>
      rd3 sp (i, h, t) * rd3 ev (i, h, t)))) (seq 0 nE)).
  Proof.
    intros [S1 S2] [V1 V2]. unfold combineSplit.
    destruct (eff1_run nE (fun res => foldM (fun res isv =>
      foldM (fun res hsv =>
        foldM (fun res tv =>
          mat <- get ev (fst isv) ;; row <- get mat (fst hsv) ;; s <- get row (fst tv) ;;
          let v := snd tv * s in
          x <- get res (fst tv) ;; set res (fst tv) (x + v))
          (combine (seq 0 (length (snd hsv))) (snd hsv)) res)
        (combine (seq 0 (length (snd isv))) (snd isv)) res)
      (combine (seq 0 (length sp)) sp) res)
      (fun t => sumn (length sp) (fun i => sumn H (fun h => sumn nE (fun t' =>
         if (t =? t')%nat then rd3 sp (i, h, t') * rd3 ev (i, h, t') else 0))))) as (r & E & Lr & Hr).
    - apply (eff_range _ _ _ (fun i t => sumn H (fun h => sumn nE (fun t' =>
         if (t =? t')%nat then rd3 sp (i, h, t') * rd3 ev (i, h, t') else 0))) sp []).
      intros i Hi. cbn [fst snd]. destruct (S2 i ltac:(lia)) as [S3 S4]. destruct (V2 i ltac:(lia)) as [V3 V4].
      apply (eff_ext _ _ _ (fun t => sumn (length (nth i sp [])) (fun h => sumn nE (fun t' =>
         if (t =? t')%nat then rd3 sp (i, h, t') * rd3 ev (i, h, t') else 0)))); [intros; rewrite S3; reflexivity|].
      apply (eff_range _ _ _ (fun h t => sumn nE (fun t' =>
         if (t =? t')%nat then rd3 sp (i, h, t') * rd3 ev (i, h, t') else 0)) (nth i sp []) []).
      intros h Hh. cbn [fst snd]. rewrite S3 in Hh. specialize (S4 h Hh). specialize (V4 h Hh).
      apply (eff_ext _ _ _ (fun t => sumn (length (nth h (nth i sp []) [])) (fun t' =>
         if (t =? t')%nat then rd3 sp (i, h, t') * rd3 ev (i, h, t') else 0))); [intros; rewrite S4; reflexivity|].
      apply (eff_range _ _ _ (fun t' t =>
         if (t =? t')%nat then rd3 sp (i, h, t') * rd3 ev (i, h, t') else 0) (nth h (nth i sp []) []) 0).
      intros t Ht. cbn [fst snd]. rewrite S4 in Ht.
      rewrite (get_nth ev i []) by lia. rewrite (get_nth (nth i ev []) h []) by lia.
      rewrite (get_nth (nth h (nth i ev []) []) t 0) by lia.
      apply eff_add1. exact Ht.
    - etransitivity; [exact E|]. f_equal. apply (map_seq_ext 0); [exact Lr|]. intros t Ht. rewrite Hr, S1.
      apply sumn_ext. intros i Hi. apply sumn_ext. intros h Hh.
      rewrite (sumn_ext _ _ (fun t' => if (t' =? t)%nat then rd3 sp (i, h, t') * rd3 ev (i, h, t') else 0)).
      + apply (sumn_delta nE t (fun t' => rd3 sp (i, h, t') * rd3 ev (i, h, t'))). exact Ht.
      + intros t' _. rewrite Nat.eqb_sym. reflexivity.
  Qed.

  (** ** The inner accumulation shared by the HL and HR rounds *)
  Lemma addScaled_eff nG H nE i h (vS : list F) e : (i < nG)%nat -> (h < H)%nat -> length vS = nE ->
    has_effect (wf3 nG H nE) rd3 (fun sp => addScaled sp i h vS e)
      (fun k => if (fst (fst k) =? i)%nat && (snd (fst k) =? h)%nat && (snd k <? nE)%nat then nth (snd k) vS 0 * e else 0).
  Proof.
    intros Hi Hh HL. unfold addScaled.
    eapply eff_ext; [|apply (eff_range _ _ _ (fun t k =>
      if (fst (fst k) =? i)%nat && (snd (fst k) =? h)%nat && (snd k =? t)%nat then nth t vS 0 * e else 0) vS 0)].
    - intros [[i' h'] t']. cbn [fst snd]. rewrite HL. destruct ((i' =? i)%nat && (h' =? h)%nat); cbn [andb].
      + destruct (Nat.ltb_spec t' nE).
        * rewrite (sumn_ext _ _ (fun t => if (t =? t')%nat then nth t vS 0 * e else 0)).
          -- apply (sumn_delta nE t' (fun t => nth t vS 0 * e)). assumption.
          -- intros t _. rewrite Nat.eqb_sym. reflexivity.
        * apply sumn_zero. intros t Ht. destruct (Nat.eqb_spec t' t); [lia|reflexivity].
      + apply sumn_zero. reflexivity.
    - intros t Ht. cbn [fst snd]. unfold addTo3. apply eff_add3; [assumption|assumption|lia].
  Qed.

  Definition St := (list (list (list F)) * list F * list F)%type.
  Definition wfT nG H nE (s : St) : Prop :=
    wf3 nG H nE (fst (fst s)) /\ length (snd (fst s)) = nE /\ length (snd s) = nE.
  Definition wfB nG H nE (b : list F) (s : St) : Prop :=
    wf3 nG H nE (fst (fst s)) /\ snd (fst s) = b /\ length (snd s) = nE.
  Definition rdT (s : St) := rd3 (fst (fst s)).

  Definition agate : Gate F := AddGate.

  Section Many.
    Variable many : Gate F -> list F -> list F -> F -> option (list F).
    Variable val : Gate F -> F -> F -> F.
    Variable gates : list (Gate F).
    Hypothesis many_val : forall g, In g gates -> forall v b y, length b = length v ->
      many g v b y = Some (map (fun x => val g x y) b).

    Lemma gates_eff H nE (nz : list (list bool)) h (b0 : list F) y e :
      length nz = length gates -> (forall i, (i < length gates)%nat -> length (nth i nz []) = H) ->
      (h < H)%nat -> length b0 = nE ->
      has_effect (wfB (length gates) H nE b0) rdT
        (fun st => foldM (fun '(sp, b, vS) ig =>
          row <- get nz (fst ig) ;;
          z <- get row h ;;
          if (z : bool) then
            vS <- many (snd ig) vS b y ;;
            sp <- addScaled sp (fst ig) h vS e ;;
            Some (sp, b, vS)
          else Some (sp, b, vS)) (combine (seq 0 (length gates)) gates) st)
        (fun k => if (fst (fst k) <? length gates)%nat && (snd (fst k) =? h)%nat && (snd k <? nE)%nat
                     && nth h (nth (fst (fst k)) nz []) false
                  then val (nth (fst (fst k)) gates agate) (nth (snd k) b0 0) y * e else 0).
    Proof.
      intros Hz1 Hz2 Hh Hb.
      eapply eff_ext; [|apply (eff_range _ _ _ (fun i k =>
        if nth h (nth i nz []) false then
          if (fst (fst k) =? i)%nat && (snd (fst k) =? h)%nat && (snd k <? nE)%nat
          then val (nth i gates agate) (nth (snd k) b0 0) y * e else 0 else 0) gates agate)].
      - intros [[i' h'] t']. cbn [fst snd].
        rewrite (sumn_ext _ _ (fun i => if (i =? i')%nat then
           (if nth h (nth i nz []) false then if (h' =? h)%nat && (t' <? nE)%nat
             then val (nth i gates agate) (nth t' b0 0) y * e else 0 else 0) else 0)).
        + destruct (Nat.ltb_spec i' (length gates)).
          * rewrite sumn_delta by assumption. cbn [andb].
            destruct (nth h (nth i' nz []) false); rewrite ?andb_true_r, ?andb_false_r; reflexivity.
          * rewrite sumn_delta_out by assumption. reflexivity.
        + intros i Hi. rewrite (Nat.eqb_sym i i'). destruct (Nat.eqb_spec i' i) as [->|]; cbn [andb].
          * reflexivity.
          * destruct (nth h (nth i nz []) false); reflexivity.
      - intros i Hi [[sp b] vS] (W1 & W2 & W3). cbn [fst snd] in *. subst b.
        rewrite (get_nth nz i []) by lia. rewrite (get_nth _ h false) by (rewrite Hz2; assumption).
        destruct (nth h (nth i nz []) false).
        + rewrite many_val; [|apply nth_In; exact Hi|lia].
          destruct (addScaled_eff (length gates) H nE i h (map (fun x => val (nth i gates agate) x y) b0) e) with (s := sp)
            as (sp' & E & W & R); [exact Hi|exact Hh|rewrite map_length; exact Hb|exact W1|].
          rewrite E. eexists. split; [reflexivity|]. split.
          * split; [exact W|]. split; [reflexivity|]. cbn [snd]. rewrite map_length. exact Hb.
          * intros [[i' h'] t']. unfold rdT. cbn [fst snd]. rewrite R. cbn [fst snd].
            destruct (Nat.ltb_spec t' nE); rewrite ?andb_true_r, ?andb_false_r; [|reflexivity].
            rewrite (nth_map_lt _ b0 t' 0 0) by lia. reflexivity.
        + eexists. split; [reflexivity|]. split; [split; [exact W1|split; [reflexivity|exact W3]]|].
          intros k. unfold rdT. cbn [fst]. ring.
    Qed.
  End Many.

  (** ** The sum the protocol is about *)
  Definition ssum (n gL gR : nat) (gates : list (Gate F)) (st : list (list F)) (eq vL vR : list F) : F :=
    sumn (length gates) (fun i => sumn gL (fun l => sumn gR (fun r => sumn n (fun h =>
      nth h eq 0 * nth (l * gR + r) (nth i st []) 0 *
      geval (nth i gates agate) (nth (l * n + h) vL 0) (nth (r * n + h) vR 0))))).

  Definition psum (n gL gR : nat) (p : Prover F) : F :=
    ssum n gL gR (sGates p) (sStatic p) (sEq p) (sVL p) (sVR p).

  (** Shape of the tables: [n] instances, [gL] rows left on the left, [gR] rows left on the right. *)
  Record shape (n gL gR : nat) (p : Prover F) : Prop := {
    sh_n : (0 < n)%nat;
    sh_eq : length (sEq p) = n;
    sh_vL : length (sVL p) = (gL * n)%nat;
    sh_vR : length (sVR p) = (gR * n)%nat;
    sh_st : length (sStatic p) = length (sGates p);
    sh_tab : forall tab, In tab (sStatic p) -> length tab = (gL * gR)%nat }.

  Definition manys (p : Prover F) : Prop := forall g, In g (sGates p) -> many_ok g.

  Lemma many_VL (p : Prover F) : manys p ->
    forall g, In g (sGates p) -> forall v b y, length b = length v ->
      gmanyVL g v b y = Some (map (fun x => geval g x y) b).
  Proof.
    intros H g Hg v b y HL. destruct (H g Hg v b y) as [E _]; [lia|]. rewrite E, HL, skipn_all, app_nil_r. reflexivity.
  Qed.

  Lemma many_VR (p : Prover F) : manys p ->
    forall g, In g (sGates p) -> forall v b y, length b = length v ->
      gmanyVR g v y b = Some (map (fun x => geval g y x) b).
  Proof.
    intros H g Hg v b y HL. destruct (H g Hg v b y) as [_ E]; [lia|]. rewrite E, HL, skipn_all, app_nil_r. reflexivity.
  Qed.

  (** ** GetClaim *)
  Lemma GetClaim_spec n g (p : Prover F) : shape n g g p -> GetClaim p = Some (psum n g g p).
  Proof.
    intros [Hn Heq HvL HvR Hst Htab]. unfold GetClaim. rewrite Heq, HvL, godiv_some by exact Hn.
    rewrite Nat.div_mul by lia.
    set (nz := fun tab : list F => map (fun h => negb (nth h tab 0 =? 0)) (seq 0 (g * g))).
    rewrite (mapM_some _ nz).
    2:{ intros tab Hin. apply mapM_some. intros h Hh. apply in_seq in Hh.
        rewrite (get_nth tab h 0) by (rewrite (Htab tab Hin); lia). reflexivity. }
    match goal with |- context [forN n ?body (repeat (repeat 0 (g * g)) (length (sStatic p)))] =>
      destruct (eff2_run (length (sStatic p)) (g * g) (fun s => forN n body s)
        (fun k => sumn n (fun hP => sumn g (fun l => sumn g (fun r => sumn (length (sStatic p)) (fun i =>
           if (nth (l * g + r) (nth i (sStatic p) []) 0 =? 0) then 0 else
           if (fst k =? i)%nat && (snd k =? l * g + r)%nat then
             geval (nth i (sGates p) agate) (nth (l * n + hP) (sVL p) 0) (nth (r * n + hP) (sVR p) 0) * nth hP (sEq p) 0
           else 0)))))) as (sp & E & W & R) end.
    - apply eff_forN. intros hP HhP. rewrite (get_nth (sEq p) hP 0) by lia.
      apply eff_forN. intros l Hl. rewrite (get_nth (sVL p) _ 0) by nia.
      apply eff_forN. intros r Hr. rewrite (get_nth (sVR p) _ 0) by nia.
      apply eff_forN. intros i Hi.
      assert (Hlen : length (nth i (sStatic p) []) = (g * g)%nat) by (apply Htab, nth_In; exact Hi).
      rewrite (get_nth _ i []) by (rewrite map_length; exact Hi).
      rewrite (nth_map_lt nz (sStatic p) i [] []) by exact Hi. unfold nz.
      rewrite (get_nth _ (l * g + r) false) by (rewrite map_length, seq_length; nia).
      rewrite nth_map_seq by nia.
      destruct (nth (l * g + r) (nth i (sStatic p) []) 0 =? 0); cbn [negb].
      + apply eff_nop.
      + rewrite (get_nth (sGates p) i agate) by lia. cbn zeta. unfold addTo2. apply eff_add2; [exact Hi|nia].
    - rewrite E. destruct W as [W1 W2].
      rewrite (combine_seq_map sp [] 0), foldM_map. cbn [fst snd Nat.add].
      assert (Hin : forall i res, (i < length sp)%nat -> foldM (fun res hv =>
          s <- get (nth i (sStatic p) []) (fst hv) ;; let v := snd hv * s in Some (res + v))
          (combine (seq 0 (length (nth i sp []))) (nth i sp [])) res
        = Some (res + sumn (g * g) (fun h => rd2 sp (i, h) * nth h (nth i (sStatic p) []) 0))).
      { intros i res Hi. rewrite W1 in Hi. rewrite (combine_seq_map (nth i sp []) 0 0), foldM_map. cbn [fst snd Nat.add].
        rewrite W2 by exact Hi.
        assert (G : forall k, (k <= g * g)%nat -> foldM (fun s a => s0 <- get (nth i (sStatic p) []) a ;;
            Some (s + nth a (nth i sp []) 0 * s0)) (seq 0 k) res
          = Some (res + sumn k (fun h => rd2 sp (i, h) * nth h (nth i (sStatic p) []) 0))).
        { induction k as [|k IHk]; intros Hk.
          - simpl. rewrite sumn_0. f_equal. ring.
          - rewrite seq_S, foldM_app, IHk by lia. cbn [foldM Nat.add].
            rewrite (get_nth _ k 0) by (rewrite (Htab _ (nth_In _ [] Hi)); lia).
            f_equal. rewrite sumn_S. unfold rd2 at 3. cbn [fst snd]. ring. }
        apply G. lia. }
      assert (G : forall k, (k <= length sp)%nat ->
        foldM (fun res i => tab <- get (sStatic p) i ;;
          foldM (fun res hv => s <- get tab (fst hv) ;; let v := snd hv * s in Some (res + v))
            (combine (seq 0 (length (nth i sp []))) (nth i sp [])) res) (seq 0 k) 0
        = Some (sumn k (fun i => sumn (g * g) (fun h => rd2 sp (i, h) * nth h (nth i (sStatic p) []) 0)))).
      { induction k as [|k IHk]; intros Hk; [reflexivity|].
        rewrite seq_S, foldM_app, IHk by lia. cbn [foldM Nat.add].
        rewrite (get_nth (sStatic p) k []) by lia. rewrite Hin by lia. rewrite sumn_S. reflexivity. }
      rewrite G by lia. f_equal. unfold psum, ssum. rewrite W1, Hst. apply sumn_ext. intros i Hi.
      rewrite sumn_mul. apply sumn_ext. intros l Hl. apply sumn_ext. intros r Hr. rewrite R. cbn [fst snd].
      rewrite <- sumn_scal_r. apply sumn_ext. intros hP HhP.
      set (s0 := nth (l * g + r) (nth i (sStatic p) []) 0).
      rewrite (sumn_ext g _ (fun a => sumn g (fun b => if (l * g + r =? a * g + b)%nat then
        (if nth (a * g + b) (nth i (sStatic p) []) 0 =? 0 then 0 else
         geval (nth i (sGates p) agate) (nth (a * n + hP) (sVL p) 0) (nth (b * n + hP) (sVR p) 0) * nth hP (sEq p) 0) else 0))).
      + rewrite (sumn_delta2 g g l r (fun a b => if nth (a * g + b) (nth i (sStatic p) []) 0 =? 0 then 0 else
         geval (nth i (sGates p) agate) (nth (a * n + hP) (sVL p) 0) (nth (b * n + hP) (sVR p) 0) * nth hP (sEq p) 0)) by assumption.
        fold s0. destruct (feqb_spec F s0 0) as [->|]; ring.
      + intros a Ha. apply sumn_ext. intros b Hb.
        destruct (Nat.eqb_spec (l * g + r) (a * g + b)) as [He|He].
        * rewrite (sumn_ext _ _ (fun j => if (j =? i)%nat then (if nth (a * g + b) (nth j (sStatic p) []) 0 =? 0 then 0 else
            geval (nth j (sGates p) agate) (nth (a * n + hP) (sVL p) 0) (nth (b * n + hP) (sVR p) 0) * nth hP (sEq p) 0) else 0)).
          -- apply (sumn_delta _ i (fun j => if nth (a * g + b) (nth j (sStatic p) []) 0 =? 0 then 0 else
            geval (nth j (sGates p) agate) (nth (a * n + hP) (sVL p) 0) (nth (b * n + hP) (sVR p) 0) * nth hP (sEq p) 0)). lia.
          -- intros j _. rewrite (Nat.eqb_sym j i), andb_true_r. destruct (i =? j)%nat; [reflexivity|]. destruct (_ =? 0); reflexivity.
        * apply sumn_zero. intros j _. rewrite andb_false_r. destruct (_ =? 0); reflexivity.
  Qed.

End S.
