(** The gadgets on expressions simulate those on wires. *)
From Coq Require Import List Arith Lia Bool Ring Field.
From Verif Require Import Field Go LSpec MHash MGkr MSnark MFront SpecSnark SpecSize SpecFront LSnark LSnark2.
Import ListNotations.

Section L.
  Context {F : Field}.
  Add Field FfieldFront : (f_theory F).
  Open Scope F_scope.
  Variable fe : Frontend F.
  Hypothesis FE : faithful fe.
  Variable Arks : list F.
  Variable cs0 : CS F.
  Hypothesis OK0 : cs_ok cs0.

  (** the witness of the folded system that [w] gives; [f]: which wire stands for which *)
  Definition at_ (f : list nat) (w : nat -> F) : nat -> F := fun i => w (nth i f 0%nat).

  Definition World (cs cs' : CS F) (f : list nat) : Prop :=
    cs_ok cs /\ cs_ok cs' /\ grows cs0 cs /\ grows cs0 cs' /\ length f = nbWires cs' /\ (forall v, In v f -> (v < nbWires cs)%nat) /\
    (forall i, (i < nbWires cs0)%nat -> nth i f 0%nat = i) /\
    (forall w, gates_ok w cs -> gates_ok (at_ f w) cs' /\ (asserts_ok w cs <-> asserts_ok (at_ f w) cs')) /\
    asserts cs' = asserts cs /\ (length (gates cs') + muls cs0 <= muls cs + length (gates cs0))%nat /\
    (never_folds fe -> (length (gates cs') + muls cs0 = muls cs + length (gates cs0))%nat).

  Definition ext (cs : CS F) (f : list nat) (cs1 : CS F) (f1 : list nat) : Prop := grows cs cs1 /\ exists g, f1 = f ++ g.

  Lemma ext_refl cs f : ext cs f cs f.
  Proof. split; [apply grows_refl|exists []; rewrite app_nil_r; reflexivity]. Qed.
  Lemma ext_trans cs f cs1 f1 cs2 f2 : ext cs f cs1 f1 -> ext cs1 f1 cs2 f2 -> ext cs f cs2 f2.
  Proof.
    intros [A (g & ->)] [B (h & ->)]. split; [eapply grows_trans; eassumption|]. exists (g ++ h). rewrite app_assoc. reflexivity.
  Qed.

  (** wire [v] and expression [a] have the same value *)
  Definition RV (cs : CS F) (f : list nat) (v : nat) (a : lc) : Prop :=
    (0 < v < nbWires cs)%nat /\ (forall t, In t a -> (snd t < length f)%nat) /\
    forall w, gates_ok w cs -> lc_val (at_ f w) a = w v.

  Lemma lc_at_ext f g w l : (forall t, In t l -> (snd t < length f)%nat) -> lc_val (at_ (f ++ g) w) l = lc_val (at_ f w) l.
  Proof. intros H. apply lc_val_ext. intros t Ht. unfold at_. rewrite app_nth1 by auto. reflexivity. Qed.

  Lemma RV_ext cs f cs1 f1 v a : ext cs f cs1 f1 -> RV cs f v a -> RV cs1 f1 v a.
  Proof.
    intros [G (g & ->)] (V & B & E). pose proof G as [N _]. split; [lia|]. split.
    - intros t Ht. rewrite app_length. specialize (B t Ht). lia.
    - intros w Hw. rewrite lc_at_ext by exact B. apply E. eapply grows_gates; eassumption.
  Qed.

  Definition mono {A B} (R : CS F -> list nat -> A -> B -> Prop) : Prop :=
    forall cs f cs1 f1 a b, ext cs f cs1 f1 -> R cs f a b -> R cs1 f1 a b.
  Definition each {A B} (R : CS F -> list nat -> A -> B -> Prop) cs f (l : list A) (l' : list B) : Prop := Forall2 (R cs f) l l'.
  Definition both {A B A' B'} (R : CS F -> list nat -> A -> B -> Prop) (R' : CS F -> list nat -> A' -> B' -> Prop) cs f (p : A * A') (q : B * B') : Prop :=
    R cs f (fst p) (fst q) /\ R' cs f (snd p) (snd q).
  Lemma RV_mono : mono RV. Proof. intros ? ? ? ?. apply RV_ext. Qed.
  Lemma each_mono {A B} (R : CS F -> list nat -> A -> B -> Prop) : mono R -> mono (each R).
  Proof. intros H cs f cs1 f1 a b X. unfold each. induction 1; constructor; eauto. Qed.
  Lemma both_mono {A B A' B'} (R : CS F -> list nat -> A -> B -> Prop) (R' : CS F -> list nat -> A' -> B' -> Prop) : mono R -> mono R' -> mono (both R R').
  Proof. intros H H' cs f cs1 f1 a b X [U V]. split; eauto. Qed.

  Definition sim {A B} (cs : CS F) (f : list nat) (m : M (F:=F) A) (m' : M (F:=F) B) (R : CS F -> list nat -> A -> B -> Prop) : Prop :=
    forall cs', World cs cs' f ->
      match m cs, m' cs' with
      | None, None => True
      | Some (a, c1), Some (b, c1') => exists f1, World c1 c1' f1 /\ ext cs f c1 f1 /\ R c1 f1 a b
      | _, _ => False
      end.

  Lemma sim_bind {A B A' B'} cs f (m : M A) (m' : M B) R (k : A -> M A') (k' : B -> M B') R' :
    sim cs f m m' R -> (forall c1 f1 a b, ext cs f c1 f1 -> R c1 f1 a b -> sim c1 f1 (k a) (k' b) R') ->
    sim cs f (mbind m k) (mbind m' k') R'.
  Proof.
    intros H1 H2 cs' HW. specialize (H1 cs' HW). unfold mbind.
    destruct (m cs) as [[a c1]|]; destruct (m' cs') as [[b c1']|]; try contradiction; [|exact I].
    destruct H1 as (f1 & W1 & X1 & HR). specialize (H2 c1 f1 a b X1 HR c1' W1).
    destruct (k a c1) as [[a2 c2]|]; destruct (k' b c1') as [[b2 c2']|]; try contradiction; [|exact I].
    destruct H2 as (f2 & W2 & X2 & HR2). exists f2. split; [exact W2|]. split; [eapply ext_trans; eassumption|exact HR2].
  Qed.

  Lemma sim_ret {A B} cs f (a : A) (b : B) (R : CS F -> list nat -> A -> B -> Prop) : R cs f a b -> sim cs f (ret a) (ret b) R.
  Proof. intros H cs' HW. exists f. split; [exact HW|]. split; [apply ext_refl|exact H]. Qed.

  Lemma sim_lift {A B} cs f (o : option A) (o' : option B) (R : CS F -> list nat -> A -> B -> Prop) :
    match o, o' with None, None => True | Some a, Some b => R cs f a b | _, _ => False end -> sim cs f (lift o) (lift o') R.
  Proof.
    intros H cs' HW. unfold lift. destruct o as [a|]; destruct o' as [b|]; try contradiction; [|exact I].
    exists f. split; [exact HW|]. split; [apply ext_refl|exact H].
  Qed.

  Lemma sim_conseq {A B} cs f (m : M A) (m' : M B) (R R' : CS F -> list nat -> A -> B -> Prop) :
    sim cs f m m' R -> (forall c1 f1 a b, ext cs f c1 f1 -> R c1 f1 a b -> R' c1 f1 a b) -> sim cs f m m' R'.
  Proof.
    intros H HI cs' HW. specialize (H cs' HW). destruct (m cs) as [[a c1]|]; destruct (m' cs') as [[b c1']|]; try contradiction; [|exact I].
    destruct H as (f1 & W1 & X1 & HR). exists f1. auto.
  Qed.

  Lemma sim_fold {A B C D} (I : CS F -> list nat -> A -> B -> Prop) (E : CS F -> list nat -> C -> D -> Prop) (g : A -> C -> M A) (g' : B -> D -> M B) :
    mono E -> forall l l', forall cs f a b, I cs f a b -> each E cs f l l' ->
    (forall c1 f1 a b c d, ext cs f c1 f1 -> I c1 f1 a b -> E c1 f1 c d -> sim c1 f1 (g a c) (g' b d) I) ->
    sim cs f (mfold g l a) (mfold g' l' b) I.
  Proof.
    intros ME. induction l as [|c l IH]; intros l' cs f a b HI HE HS; inversion HE as [|? d ? l2 E1 E2]; subst; cbn [mfold].
    - apply sim_ret. exact HI.
    - eapply sim_bind; [apply HS; [apply ext_refl|exact HI|exact E1]|]. intros c1 f1 a1 b1 X1 HI1. apply IH; [exact HI1| |].
      + apply (each_mono E ME _ _ _ _ _ _ X1 E2).
      + intros. apply HS; [eapply ext_trans; eassumption|assumption|assumption].
  Qed.

  (** a loop over the same indices *)
  Lemma sim_loop {A B C} (I : CS F -> list nat -> A -> B -> Prop) (g : A -> C -> M A) (g' : B -> C -> M B) l cs f a b :
    I cs f a b -> (forall c1 f1 a b c, ext cs f c1 f1 -> I c1 f1 a b -> sim c1 f1 (g a c) (g' b c) I) ->
    sim cs f (mfold g l a) (mfold g' l b) I.
  Proof.
    intros HI HS. apply (sim_fold I (fun _ _ c d => c = d)); [intros ? ? ? ? ? ? _ H; exact H|exact HI| |].
    - unfold each. clear. induction l; constructor; auto.
    - intros c1 f1 a1 b1 c d X1 HI1 <-. apply HS; assumption.
  Qed.

  Lemma sim_map {A B C} (R : CS F -> list nat -> A -> B -> Prop) (g : C -> M A) (g' : C -> M B) l : mono R -> forall cs f,
    (forall c1 f1 c, ext cs f c1 f1 -> sim c1 f1 (g c) (g' c) R) -> sim cs f (mmap g l) (mmap g' l) (each R).
  Proof.
    intros MR. induction l as [|c l IH]; intros cs f HS; cbn [mmap]; [apply sim_ret; constructor|].
    eapply sim_bind; [apply HS, ext_refl|]. intros c1 f1 a b X1 HR. eapply sim_bind.
    - apply IH. intros. apply HS. eapply ext_trans; eassumption.
    - intros c2 f2 a2 b2 X2 HR2. apply sim_ret. constructor; [apply (MR _ _ _ _ _ _ X2 HR)|exact HR2].
  Qed.

  (* ------------------------------------------------------------- lists *)

  Lemma each_get {A B} (R : CS F -> list nat -> A -> B -> Prop) cs f l l' i : each R cs f l l' ->
    match get l i, get l' i with None, None => True | Some a, Some b => R cs f a b | _, _ => False end.
  Proof. intros H. unfold get. revert i. induction H; intros [|i]; cbn; auto; apply IHForall2. Qed.

  Lemma each_length {A B} (R : CS F -> list nat -> A -> B -> Prop) cs f l l' : each R cs f l l' -> length l = length l'.
  Proof. induction 1; cbn; congruence. Qed.

  Lemma each_firstn {A B} (R : CS F -> list nat -> A -> B -> Prop) cs f n l l' : each R cs f l l' -> each R cs f (firstn n l) (firstn n l').
  Proof. intros H. revert n. induction H; intros [|n]; cbn; constructor; auto; try apply IHForall2. Qed.
  Lemma each_skipn {A B} (R : CS F -> list nat -> A -> B -> Prop) cs f n l l' : each R cs f l l' -> each R cs f (skipn n l) (skipn n l').
  Proof. intros H. revert n. induction H; intros [|n]; cbn; try constructor; auto; try apply IHForall2. Qed.

  Lemma each_slice {A B} (R : CS F -> list nat -> A -> B -> Prop) cs f l l' i j : each R cs f l l' ->
    match slice l i j, slice l' i j with None, None => True | Some a, Some b => each R cs f a b | _, _ => False end.
  Proof.
    intros H. unfold slice. rewrite <- (each_length _ _ _ _ _ H). destruct ((i <=? j) && (j <=? length l))%nat; [|exact I].
    apply each_firstn, each_skipn, H.
  Qed.

  Lemma each_upd {A B} (R : CS F -> list nat -> A -> B -> Prop) cs f l l' i x y : each R cs f l l' -> R cs f x y -> each R cs f (upd l i x) (upd l' i y).
  Proof. intros H HX. revert i. induction H; intros [|i]; cbn; constructor; auto; try apply IHForall2. Qed.

  Lemma each_set {A B} (R : CS F -> list nat -> A -> B -> Prop) cs f l l' i x y : each R cs f l l' -> R cs f x y ->
    match set l i x, set l' i y with None, None => True | Some a, Some b => each R cs f a b | _, _ => False end.
  Proof.
    intros H HX. unfold set. rewrite <- (each_length _ _ _ _ _ H). destruct (i <? length l)%nat; [|exact I]. apply each_upd; assumption.
  Qed.

  Lemma each_app {A B} (R : CS F -> list nat -> A -> B -> Prop) cs f l l' k k' : each R cs f l l' -> each R cs f k k' -> each R cs f (l ++ k) (l' ++ k').
  Proof. apply Forall2_app. Qed.

  (* ------------------------------------------------------------- the frontend *)

  Lemma lc_scale (w : nat -> F) c l : lc_val w (scale c l) = c * lc_val w l.
  Proof. unfold lc_val, scale. induction l as [|t l IH]; cbn [map suml fst snd]; [ring|]. rewrite IH. ring. Qed.
  Lemma lc_app (w : nat -> F) (l l' : list (F * nat)) : lc_val w (l ++ l') = lc_val w l + lc_val w l'.
  Proof. unfold lc_val. induction l as [|t l IH]; cbn [app suml]; [ring|]. rewrite IH. ring. Qed.
  Lemma in_scale (t : F * nat) c l : In t (scale c l) -> exists t', In t' l /\ snd t' = snd t.
  Proof. unfold scale. intros H. apply in_map_iff in H. destruct H as (t' & <- & H). exists t'. auto. Qed.

  Lemma world_pos cs cs' f : World cs cs' f -> (0 < length f)%nat.
  Proof. intros (_ & (H & _) & _ & _ & L & _). rewrite L. exact H. Qed.
  Lemma world_one cs cs' f w : World cs cs' f -> gates_ok w cs -> at_ f w 0%nat = 1.
  Proof. intros (_ & _ & _ & _ & _ & _ & _ & H & _) Hw. apply (H w Hw). Qed.

  Lemma reduce_in (f : list nat) l : (0 < length f)%nat -> (forall t, In t l -> (snd t < length f)%nat) -> forall t, In t (reduce fe l) -> (snd t < length f)%nat.
  Proof.
    intros P H t Ht. destruct FE as (_ & H2 & _). destruct (H2 t l Ht) as [E|E]; [lia|]. apply in_map_iff in E.
    destruct E as (t' & <- & Ht'). auto.
  Qed.

  (** a wire is added on the left only *)
  Lemma world_left cs cs' f L r c1 (n : nat) : World cs cs' f -> newWire L r cs = Some (n, c1) -> computes cs c1 ->
    (never_folds fe -> isMul (MkR1c L r [(1, nbWires cs)]) = false) ->
    World c1 cs' f /\ ext cs f c1 f.
  Proof.
    intros (O1 & O2 & G1 & G2 & LF & BF & ID & HW & AS & LE & EQ) E (C1 & C2 & C3) HM. assert (c1 = MkCS (S (nbWires cs)) (gates cs ++ [MkR1c L r [(1, nbWires cs)]]) (assertions cs)) by (unfold newWire in E; congruence). subst c1. clear E.
    split; [|split; [exact C2|exists []; rewrite app_nil_r; reflexivity]].
    split; [exact C1|]. split; [exact O2|]. split; [exact (grows_trans _ _ _ G1 C2)|]. split; [exact G2|]. split; [exact LF|].
    split; [intros v Hv; specialize (BF v Hv); cbn; lia|]. split; [exact ID|]. split.
    - intros w Hw. assert (Hw0 : gates_ok w cs) by (eapply grows_gates; eassumption). destruct (HW w Hw0) as [H1 H2]. split; [exact H1|].
      rewrite <- H2. reflexivity.
    - split; [exact AS|]. unfold muls in *. cbn [gates]. rewrite filter_app, app_length. split; [lia|].
      intros NF. cbn [filter]. rewrite (HM NF). cbn [length]. rewrite (EQ NF). lia.
  Qed.

  Lemma sim_left cs f L r (b : lc) (R : CS F -> list nat -> nat -> lc -> Prop) : (0 < length f)%nat ->
    (forall t, In t (L ++ r) -> (snd t < nbWires cs)%nat) -> (never_folds fe -> isMul (MkR1c L r [(1, nbWires cs)]) = false) ->
    (forall t, In t b -> (snd t < length f)%nat) ->
    (forall w, gates_ok w cs -> at_ f w 0%nat = 1 -> lc_val (at_ f w) b = lc_val w L * lc_val w r) ->
    (forall c1 f1 v, RV c1 f1 v b -> R c1 f1 v b) ->
    sim cs f (newWire L r) (ret b) R.
  Proof.
    intros P HLR HM HB HV HR cs' HW. assert (O1 := proj1 HW). destruct (newWire_ok cs L r O1 HLR) as (c1 & E & HC & V1). rewrite E. cbn [ret].
    destruct (world_left cs cs' f L r c1 (nbWires cs) HW E HC HM) as [W1 X1]. exists f. split; [exact W1|]. split; [exact X1|].
    apply HR. destruct V1 as [V1 V2]. split; [destruct O1 as [O1 _]; lia|]. split; [exact HB|].
    intros w Hw. rewrite (V2 w Hw). assert (Hw0 : gates_ok w cs) by (eapply grows_gates; [apply HC|eassumption]).
    apply HV; [exact Hw0|]. eapply world_one; eassumption.
  Qed.

  Lemma sim_here {A B} cs f (m : M A) (m' : M B) R : ((0 < length f)%nat -> (0 < nbWires cs)%nat -> sim cs f m m' R) -> sim cs f m m' R.
  Proof. intros H cs' HW. exact (H (world_pos _ _ _ HW) (proj1 (proj1 HW)) cs' HW). Qed.

  Lemma sim_Constant cs f c : sim cs f (cConstant c) (fConstant fe c) RV.
  Proof.
    apply sim_here. intros P N. apply sim_left; auto.
    - intros t [<-|[<-|[]]]; exact N.
    - apply reduce_in; [exact P|]. intros t [<-|[]]. exact P.
    - intros w Hw H1. rewrite (proj1 FE) by exact H1. unfold lc_val, oneLC. cbn [suml fst snd]. rewrite H1, (proj1 Hw). ring.
  Qed.

  Lemma lc_concat (w : nat -> F) (l : list (list (F * nat))) : lc_val w (concat l) = suml l (lc_val w).
  Proof. induction l as [|x l IH]; cbn [concat suml]; [reflexivity|]. rewrite lc_app, IH. reflexivity. Qed.

  Lemma sim_Add cs f a b rest a' b' rest' : RV cs f a a' -> RV cs f b b' -> each RV cs f rest rest' ->
    sim cs f (cAdd a b rest) (fAdd fe a' b' rest') RV.
  Proof.
    intros HA HB HR. assert (HL : each RV cs f (a :: b :: rest) (a' :: b' :: rest')) by (constructor; [exact HA|constructor; [exact HB|exact HR]]).
    unfold cAdd, fAdd. revert HL. generalize (a :: b :: rest) (a' :: b' :: rest'). clear - FE. intros l l' HL.
    apply sim_here. intros P N. apply sim_left; auto.
    - intros t Ht. apply in_app_iff in Ht. destruct Ht as [Ht|[<-|[]]]; [|exact N]. apply in_map_iff in Ht. destruct Ht as (v & <- & Hv). cbn.
      clear - HL Hv. induction HL as [|? ? ? ? H]; [destruct Hv|]. destruct Hv as [->|Hv]; [apply H|auto].
    - apply reduce_in; [exact P|]. intros t Ht. apply in_concat in Ht. destruct Ht as (x & Hx & Ht).
      clear - HL Hx Ht. induction HL as [|? ? ? ? H]; [destruct Hx|]. destruct Hx as [->|Hx]; [apply H; exact Ht|auto].
    - intros w Hw H1. rewrite (proj1 FE) by exact H1. rewrite lc_concat, (lc_one w cs Hw), lc_sum.
      clear - HL Hw. induction HL as [|? ? ? ? H HL IH]; cbn [suml map]; [ring|]. rewrite IH. destruct H as (_ & _ & H). rewrite (H w Hw). ring.
  Qed.

  Lemma sim_Sub cs f a b a' b' : RV cs f a a' -> RV cs f b b' -> sim cs f (cSub a b) (fSub fe a' b') RV.
  Proof.
    intros (A1 & A2 & A3) (B1 & B2 & B3). apply sim_here. intros P N. apply sim_left; auto.
    - intros t [<-|[<-|[<-|[]]]]; cbn; lia.
    - apply reduce_in; [exact P|]. intros t Ht. apply in_app_iff in Ht. destruct Ht as [Ht|Ht]; [auto|].
      apply in_scale in Ht. destruct Ht as (t' & Ht & <-). auto.
    - intros w Hw H1. rewrite (proj1 FE) by exact H1. rewrite lc_app, lc_scale, (A3 w Hw), (B3 w Hw), (lc_one w cs Hw).
      unfold lc_val. cbn [suml fst snd]. ring.
  Qed.

  Lemma sim_SubConst cs f c b b' : RV cs f b b' -> sim cs f (cSubConst c b) (fSubConst fe c b') RV.
  Proof.
    intros (B1 & B2 & B3). apply sim_here. intros P N. apply sim_left; auto.
    - intros t [<-|[<-|[<-|[]]]]; cbn; lia.
    - apply reduce_in; [exact P|]. intros t [<-|Ht]; [exact P|].
      apply in_scale in Ht. destruct Ht as (t' & Ht & <-). auto.
    - intros w Hw H1. rewrite (proj1 FE) by exact H1. change ((c, 0%nat) :: scale (- (1)) b') with ([(c, 0%nat)] ++ scale (- (1)) b').
      rewrite lc_app, lc_scale, (B3 w Hw), (lc_one w cs Hw).
      unfold lc_val. cbn [suml fst snd]. rewrite H1, (proj1 Hw). ring.
  Qed.

  Lemma sim_Mul cs f a b a' b' : RV cs f a a' -> RV cs f b b' -> sim cs f (cMul a b) (fMul fe a' b') RV.
  Proof.
    intros HA HB. pose proof HA as (A1 & A2 & A3). pose proof HB as (B1 & B2 & B3). unfold fMul.
    destruct (constantOf fe a') as [c|] eqn:EA; [|destruct (constantOf fe b') as [c|] eqn:EB].
    - apply sim_here. intros P N. apply sim_left; auto.
      + intros t [<-|[<-|[]]]; cbn; lia.
      + intros NF. rewrite NF in EA. discriminate.
      + apply reduce_in; [exact P|]. intros t Ht. apply in_scale in Ht. destruct Ht as (t' & Ht & <-). auto.
      + intros w Hw H1. rewrite (proj1 FE) by exact H1. rewrite lc_scale, (B3 w Hw). destruct FE as (_ & _ & H3).
        rewrite <- (H3 _ _ _ H1 EA), (A3 w Hw). unfold lc_val. cbn [suml fst snd]. ring.
    - apply sim_here. intros P N. apply sim_left; auto.
      + intros t [<-|[<-|[]]]; cbn; lia.
      + intros NF. rewrite NF in EB. discriminate.
      + apply reduce_in; [exact P|]. intros t Ht. apply in_scale in Ht. destruct Ht as (t' & Ht & <-). auto.
      + intros w Hw H1. rewrite (proj1 FE) by exact H1. rewrite lc_scale, (A3 w Hw). destruct FE as (_ & _ & H3).
        rewrite <- (H3 _ _ _ H1 EB), (B3 w Hw). unfold lc_val. cbn [suml fst snd]. ring.
    - intros cs' HW. pose proof HW as (O1 & O2 & G1 & G2 & LF & BF & ID & HWW & AS & LE & EQ).
      destruct (newWire_ok cs [(1, a)] [(1, b)] O1) as (c1 & E & HC & V1); [intros t [<-|[<-|[]]]; cbn; lia|].
      destruct (newWire_ok cs' a' b' O2) as (c1' & E' & HC' & V1').
      { intros t Ht. rewrite <- LF. apply in_app_iff in Ht. destruct Ht; auto. }
      unfold cMul. rewrite E. unfold mbind. rewrite E'. cbn [ret]. exists (f ++ [nbWires cs]).
      assert (XX : ext cs f c1 (f ++ [nbWires cs])) by (split; [apply HC|eexists; reflexivity]).
      assert (C1 : c1 = MkCS (S (nbWires cs)) (gates cs ++ [MkR1c [(1, a)] [(1, b)] [(1, nbWires cs)]]) (assertions cs)) by (unfold newWire in E; congruence).
      assert (C1' : c1' = MkCS (S (nbWires cs')) (gates cs' ++ [MkR1c a' b' [(1, nbWires cs')]]) (assertions cs')) by (unfold newWire in E'; congruence).
      destruct V1 as [V1 V2]. destruct V1' as [V1' V2'].
      assert (IN : (nbWires cs0 <= nbWires cs')%nat) by apply G2.
      assert (NEW : forall w, at_ (f ++ [nbWires cs]) w (nbWires cs') = w (nbWires cs)).
      { intros w. unfold at_. rewrite app_nth2 by lia. rewrite LF, Nat.sub_diag. reflexivity. }
      assert (AG : forall w, agree_below (nbWires cs') (at_ f w) (at_ (f ++ [nbWires cs]) w)).
      { intros w v Hv. unfold at_. rewrite app_nth1 by lia. reflexivity. }
      split; [|split; [exact XX|]].
      + split; [apply HC|]. split; [apply HC'|]. split; [eapply grows_trans; [exact G1|apply HC]|]. split; [eapply grows_trans; [exact G2|apply HC']|].
        split; [rewrite C1', app_length, LF; cbn; lia|]. split.
        { intros v Hv. rewrite C1. cbn. apply in_app_iff in Hv. destruct Hv as [Hv|[<-|[]]]; [specialize (BF v Hv)|]; lia. }
        split; [intros i Hi; rewrite app_nth1 by lia; auto|]. split.
        { intros w Hw. assert (Hw0 : gates_ok w cs) by (eapply grows_gates; [apply HC|eassumption]). destruct (HWW w Hw0) as [H1 H2]. split.
          - pose proof (proj1 (gates_ext cs' _ _ O2 (AG w)) H1) as [K1 K2]. split; [exact K1|]. rewrite C1'. cbn [gates]. apply Forall_app.
            split; [exact K2|]. constructor; [|constructor]. unfold holds. cbn [rL rR rO]. rewrite !lc_at_ext by assumption.
            rewrite (A3 w Hw0), (B3 w Hw0). unfold lc_val. cbn [suml fst snd]. rewrite NEW, (V2 w Hw). unfold lc_val. cbn [suml fst snd]. ring.
          - rewrite C1, C1'. unfold asserts_ok in *. cbn [assertions]. rewrite H2. apply (asserts_ext cs' _ _ O2 (AG w)). }
        rewrite C1, C1'. unfold muls in *. unfold asserts in *. cbn [assertions gates]. split; [exact AS|]. rewrite filter_app, !app_length.
        assert (ML : length (filter (isMul (F:=F)) [MkR1c [(1, a)] [(1, b)] [(1, nbWires cs)]]) = 1%nat) by (destruct b; [lia|reflexivity]).
        rewrite ML. cbn [length]. split; [lia|]. intros NF. specialize (EQ NF). lia.
      + split; [rewrite C1; cbn; destruct O1; lia|]. split.
        { intros t [<-|[]]. cbn. rewrite app_length, LF. cbn. lia. }
        intros w Hw. unfold wire, lc_val. cbn [suml fst snd]. rewrite NEW. ring.
  Qed.

  Lemma sim_AssertIsEqual cs f a b a' b' : RV cs f a a' -> RV cs f b b' -> sim cs f (cAssertIsEqual a b) (fAssertIsEqual a' b') (fun _ _ _ _ => True).
  Proof.
    intros (A1 & A2 & A3) (B1 & B2 & B3) cs' HW. pose proof HW as (O1 & O2 & G1 & G2 & LF & BF & ID & HWW & AS & LE & EQ).
    destruct (cAssert_ok cs a b (fun w => w a) (fun w => w b) O1) as (c1 & E & HC); [apply val1_id; lia|apply val1_id; lia|].
    rewrite E. unfold fAssertIsEqual. set (c1' := MkCS _ _ _). exists f.
    assert (C1 : c1 = MkCS (nbWires cs) (gates cs) (assertions cs ++ [MkR1c [(1, a)] oneLC [(1, b)]])) by (unfold cAssertIsEqual in E; congruence).
    assert (O1' : cs_ok c1').
    { destruct O2 as (Z1 & Z2 & Z3). split; [exact Z1|]. split; [exact Z2|]. apply Forall_app. split; [exact Z3|]. constructor; [|constructor].
      intros t Ht. cbn [rL rR rO] in Ht. rewrite !in_app_iff in Ht. cbn [nbWires c1']. rewrite <- LF.
      destruct Ht as [Ht|[[<-|[]]|Ht]]; [auto| |auto]. cbn. lia. }
    assert (G1' : grows cs' c1').
    { split; [cbn; lia|]. split; [exists []; cbn; rewrite app_nil_r; reflexivity|]. split; [eexists; reflexivity|]. split.
      - intros w Hw. exists w. split; [intros v _; reflexivity|exact Hw].
      - intros w w' _ _ H. exact H. }
    split; [|split; [split; [apply HC|exists []; rewrite app_nil_r; reflexivity]|exact I]].
    split; [apply HC|]. split; [exact O1'|]. split; [eapply grows_trans; [exact G1|apply HC]|]. split; [exact (grows_trans _ _ _ G2 G1')|].
    split; [exact LF|]. split; [rewrite C1; exact BF|]. split; [exact ID|]. split.
    - intros w Hw. assert (Hw0 : gates_ok w cs) by (eapply grows_gates; [apply HC|eassumption]). destruct (HWW w Hw0) as [H1 H2]. split; [exact H1|].
      rewrite C1. unfold asserts_ok, c1' in *. cbn [assertions]. rewrite !Forall_app, H2.
      assert (holds w (MkR1c [(1, a)] oneLC [(1, b)]) <-> holds (at_ f w) (MkR1c a' oneLC b')) as HH.
      { unfold holds. cbn [rL rR rO]. rewrite (A3 w Hw0), (B3 w Hw0), (lc_one w cs Hw0), (lc_one (at_ f w) cs' H1).
        unfold lc_val. cbn [suml fst snd]. split; intros Z.
        - transitivity (1 * w a * 1); [ring|]. transitivity ((1 * w a + 0) * 1); [ring|]. rewrite Z. ring.
        - transitivity (w a * 1); [ring|]. rewrite Z. ring. }
      split; intros [Z1 Z2]; (split; [exact Z1|]); inversion Z2; subst; constructor; try constructor; apply HH; assumption.
    - rewrite C1. unfold c1', asserts, muls in *. cbn [assertions gates]. rewrite !app_length, AS. auto.
  Qed.
End L.
