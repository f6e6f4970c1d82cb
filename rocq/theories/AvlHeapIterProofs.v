(** Proofs about [AvlHeapIterModel]: iterators on nodes against those of [AvlIterModel] on trees of addresses. *)
From Verif Require Import Base Bind Machine OrderSpec SMapSpec SMapFacts AvlTree AvlSpec AvlModel AvlIterModel AvlIterProofs AvlStep AvlHeapModel AvlHeapSpec AvlHeapProofs AvlHeapRotProofs AvlHeapOpProofs AvlHeapTopProofs AvlHeapIterModel AvlHeapIterSpec.
Local Open Scope Z_scope.

Section Sim.
  Context {K V : Type}.
  Implicit Types m : mem K V.
  Notation aiter := (AvlIterModel.iter nat unit).
  Definition ptrOf (t : atree) : option nat := match t with E => None | N _ a _ _ _ => Some a end.
  Definition pc (x : atree * bool) : option nat * bool := (ptrOf (fst x), snd x).
  Definition H (A : aiter) : hiter := HI (ptrOf (cur A)) (idx A) (map pc (stack A)).
  Definition good m (t : atree) : Prop := rep m (ptrOf t) t.
  Definition ok m (A : aiter) : Prop := good m (cur A) /\ Forall (fun x => good m (fst x)) (stack A).

  Lemma rep_ptr m q t : rep m q t -> q = ptrOf t. Proof. destruct t; cbn [rep ptrOf]; [auto|]. intros (-> & _). reflexivity. Qed.
  Lemma peek_sim s i x : peek s i = Some x -> hpeek (map pc s) i = Some (pc x) /\ In x s.
  Proof.
    unfold peek, hpeek. destruct (i <? 0); [discriminate|]. intros E1. split; [rewrite nth_error_map, E1; reflexivity|eapply nth_error_In, E1].
  Qed.
  Lemma poke_sim m s i x s' : poke s i x = Some s' -> hpoke (map pc s) i (pc x) = Some (map pc s') /\
    (Forall (fun x => good m (fst x)) s -> good m (fst x) -> Forall (fun x => good m (fst x)) s').
  Proof.
    unfold poke, hpoke. rewrite map_length. destruct (_ || _); [discriminate|]. intros [= <-]. split; [rewrite map_app, firstn_map; cbn [map]; rewrite skipn_map; reflexivity|].
    intros F1 F2. apply Forall_app. rewrite Forall_forall in F1. split; [|constructor; [exact F2|]]; apply Forall_forall; intros y F; apply F1; [rewrite <- (firstn_skipn (Z.to_nat i) s)|rewrite <- (firstn_skipn (S (Z.to_nat i)) s)]; apply in_or_app; tauto.
  Qed.
  Lemma good_child m h a u l r c : good m (N h a u l r) -> kid (nodes m a) c = ptrOf (child c l r) /\ good m (child c l r).
  Proof. intros (_ & _ & _ & Hl & Hr). unfold good. destruct c; cbn [kid child]; [rewrite <- (rep_ptr _ _ _ Hr)|rewrite <- (rep_ptr _ _ _ Hl)]; auto. Qed.
  Lemma down_sim m c A A' b : ok m A -> down c A = Some (A', b) -> hdown m c (H A) = Some (H A', b) /\ ok m A'.
  Proof.
    intros (G1 & G2). unfold down, hdown. destruct A as [tA cA iA sA]. unfold H in *. cbn [cur idx stack itree hcur hidx hstack] in *. destruct cA as [|h a u l r]; cbn [ptrOf].
    - destruct (-1 <? iA); [|intros [= <- <-]; split; [reflexivity|split; assumption]].
      destruct (peek sA iA) as [[n dd]|] eqn:EP; [|discriminate]. destruct (peek_sim _ _ _ EP) as (-> & HI). cbn [pc fst snd]. destruct (Bool.eqb dd (negb c)); intros [= <- <-]; (split; [reflexivity|]); [|split; assumption].
      split; cbn [cur stack]; [|assumption]. rewrite Forall_forall in G2. exact (G2 _ HI).
    - destruct (good_child _ _ _ _ _ _ c G1) as (-> & G3). destruct (child c l r) as [|xh xa xu xl xr]; cbn [ptrOf]; [intros [= <- <-]; split; [reflexivity|split; assumption]|].
      destruct (poke sA (iA + 1) (N h a u l r, c)) as [s|] eqn:EP; [|discriminate]. intros [= <- <-]. destruct (poke_sim m _ _ _ _ EP) as (E1 & E2). unfold pc in E1 at 2. cbn [fst snd ptrOf] in E1. rewrite E1.
      split; [reflexivity|]. split; [exact G3|]. apply E2; assumption.
  Qed.
  Lemma up_loop_sim m c : forall f A i A' b, ok m A -> up_loop f c A i = Some (A', b) -> hup_loop f c (H A) i = Some (H A', b) /\ ok m A'.
  Proof.
    induction f as [|f IH]; intros A i A' b (G1 & G2); [discriminate|]. cbn [up_loop hup_loop]. destruct A as [tA cA iA sA]. unfold H in *. cbn [cur idx stack itree hcur hidx hstack] in *.
    destruct (-1 <? i).
    - destruct (peek sA i) as [[n dd]|] eqn:EP; [|discriminate]. destruct (peek_sim _ _ _ EP) as (-> & HI). cbn [pc fst snd]. destruct (Bool.eqb dd (negb c)).
      + intros [= <- <-]. split; [reflexivity|]. split; cbn [cur stack]; [|assumption]. rewrite Forall_forall in G2. exact (G2 _ HI).
      + intros E1. apply (IH (IT tA cA iA sA) (i - 1) A' b); [split; assumption|exact E1].
    - destruct cA as [|h a u l r]; cbn [ptrOf]; [intros [= <- <-]; split; [reflexivity|split; assumption]|].
      destruct (poke sA (iA + 1) (N h a u l r, c)) as [s|] eqn:EP; [|discriminate]. intros [= <- <-]. destruct (poke_sim m _ _ _ _ EP) as (E1 & E2). unfold pc in E1 at 2. cbn [fst snd ptrOf] in E1. rewrite E1.
      split; [reflexivity|]. split; [reflexivity|]. apply E2; assumption.
  Qed.
  Lemma up_sim m c A A' b : ok m A -> up c A = Some (A', b) -> hup c (H A) = Some (H A', b) /\ ok m A'.
  Proof. apply up_loop_sim. Qed.
  Lemma down_loop_sim m c : forall f f' A A', (f <= f')%nat -> ok m A -> down_loop f c A = Some A' -> hdown_loop f' m c (H A) = Some (H A') /\ ok m A'.
  Proof.
    induction f as [|f IH]; intros f' A A' Hf G; [discriminate|]. destruct f' as [|f']; [lia|]. cbn [down_loop hdown_loop]. destruct (down c A) as [[A1 b]|] eqn:ED; [|discriminate].
    destruct (down_sim _ _ _ _ _ G ED) as (-> & G1). destruct b; [apply IH; [lia|exact G1]|]. intros [= <-]. split; [reflexivity|exact G1].
  Qed.
  Lemma move_sim m c A A' : (AvlIterModel.levels (root (itree A)) <= steps m)%nat -> ok m A -> move c A = Some A' -> hmove m c (H A) = Some (H A') /\ ok m A'.
  Proof.
    intros Hl G. unfold move, hmove. destruct (down c A) as [[A1 b]|] eqn:ED; [|discriminate]. destruct (down_sim _ _ _ _ _ G ED) as (-> & G1).
    destruct b; [apply down_loop_sim; assumption|]. destruct (up c A1) as [[A2 b2]|] eqn:EU; [|discriminate]. destruct (up_sim _ _ _ _ _ G1 EU) as (-> & G2). intros [= <-]. split; [reflexivity|exact G2].
  Qed.
  Lemma seek_loop_sim m (cmpA : nat -> nat -> Z) (cmp : K -> K -> Z) kA key strict lg :
    (forall a, (0 < a < next m)%nat -> cmpA a kA = cmp (Key (nodes m a)) key /\ (cmp (Key (nodes m a)) key < 0 \/ cmp (Key (nodes m a)) key = 0 \/ cmp (Key (nodes m a)) key = 1)) ->
    forall f f' A A' b, (f <= f')%nat -> (AvlIterModel.levels (root (itree A)) <= steps m)%nat -> ok m A -> seek_loop cmpA f strict kA lg A = Some (A', b) ->
    hseek_loop cmp f' m strict key lg (H A) = Some (H A', b) /\ ok m A'.
  Proof.
    intros HC. induction f as [|f IH]; intros f' A A' b Hf HL G; [discriminate|]. destruct f' as [|f']; [lia|]. cbn [seek_loop hseek_loop].
    destruct (cur A) as [|h a u l r] eqn:EA; [discriminate|]. pose proof G as (G1 & _). unfold good in G1. rewrite EA in G1. destruct G1 as (_ & _ & Ha & _). destruct (HC a Ha) as (-> & HV).
    assert (EC : hcur (H A) = Some a) by (unfold H; cbn [hcur]; rewrite EA; reflexivity). rewrite EC. cbn [rd].
    destruct (Z.ltb_spec (cmp (Key (nodes m a)) key) 0) as [HN0|HN0].
    - destruct strict; [|intros [= <- <-]; split; [reflexivity|exact G]]. destruct (move lg A) as [A1|] eqn:EM; [|discriminate]. destruct (move_sim _ _ _ _ HL G EM) as (-> & G2). intros [= <- <-]. split; [reflexivity|exact G2].
    - assert (E1 : ((i8 (cmp (Key (nodes m a)) key) =? 0) || (i8 (cmp (Key (nodes m a)) key) =? 1))%bool = true /\ (i8 (cmp (Key (nodes m a)) key) =? 1) = (cmp (Key (nodes m a)) key =? 1))
        by (destruct HV as [F|[->| ->]]; [lia|split; reflexivity|split; reflexivity]). destruct E1 as (-> & ->).
      destruct (down _ A) as [[A1 b1]|] eqn:ED; [|discriminate]. destruct (down_sim _ _ _ _ _ G ED) as (-> & G2).
      assert (HT : itree A1 = itree A).
      { revert ED. unfold down. rewrite EA. destruct (child _ l r); [intros [= <- <-]; reflexivity|]. destruct (poke _ _ _); [|discriminate]. intros [= <- <-]. reflexivity. }
      destruct b1; [apply IH; [lia|rewrite HT; exact HL|exact G2]|]. destruct (Bool.eqb _ lg); [|intros [= <- <-]; split; [reflexivity|exact G2]].
      destruct (up lg A1) as [[A2 b2]|] eqn:EU; [|discriminate]. destruct (up_sim _ _ _ _ _ G2 EU) as (-> & G3). intros [= <- <-]. split; [reflexivity|exact G3].
  Qed.
  Lemma rep_det m T : forall q T', rep m q T -> rep m q T' -> T = T'.
  Proof.
    induction T as [|h a u l IHl r IHr]; intros q [|h' a' u' l' r']; cbn [rep]; [reflexivity|intros -> (F & _); discriminate|intros (-> & _) F; discriminate|].
    intros (-> & Hh & _ & Hl & Hr) ([= <-] & Hh' & _ & Hl' & Hr'). destruct u, u'. rewrite <- Hh, <- Hh'. f_equal; [eapply IHl; eassumption|eapply IHr; eassumption].
  Qed.
  Lemma levels_len T : AvlIterModel.levels T = S (length (addrs T) + length (addrs T)).
  Proof. induction T as [|h a u l IHl r IHr]; [reflexivity|]. cbn [AvlIterModel.levels addrs]. rewrite app_length. cbn [length]. lia. Qed.
  Lemma levels_steps m T : rootAt m T -> (AvlIterModel.levels T <= steps m)%nat.
  Proof.
    intros ((HR & HS & _ & Hn) & _). rewrite levels_len. unfold steps.
    assert (NoDup (0%nat :: addrs T)) as ND by (constructor; [rewrite in_addrs; intros F; pose proof (rep_in _ _ _ _ HR F); lia|apply nodup_addrs, HS]).
    apply NoDup_incl_length with (l' := seq 0 (next m)) in ND; [rewrite seq_length in ND; cbn [length] in *; lia|].
    intros x [<-|F]; [|rewrite in_addrs in F]; apply in_seq; [lia|]. pose proof (rep_in _ _ _ _ HR F). lia.
  Qed.
  Lemma copy_sim m : forall n i src dst dst', copy_cells n i src dst = Some dst' -> hcopy_cells n i (map pc src) (map pc dst) = Some (map pc dst') /\
    (Forall (fun x => good m (fst x)) src -> Forall (fun x => good m (fst x)) dst -> Forall (fun x => good m (fst x)) dst').
  Proof.
    induction n as [|n IH]; intros i src dst dst'; cbn [copy_cells hcopy_cells]; [intros [= <-]; auto|]. destruct (peek src i) as [x|] eqn:EP; [|discriminate]. destruct (peek_sim _ _ _ EP) as (-> & HI).
    destruct (poke dst i x) as [d1|] eqn:EK; [|discriminate]. destruct (poke_sim m _ _ _ _ EK) as (-> & F1). intros E1. destruct (IH _ _ _ _ E1) as (E2 & F2). split; [exact E2|].
    intros G1 G2. apply F2; [exact G1|]. apply F1; [exact G2|]. rewrite Forall_forall in G1. exact (G1 _ HI).
  Qed.
End Sim.
