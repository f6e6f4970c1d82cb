(** Proofs about what the heap, the circular queue and the segmented stack allocate. *)
From Verif Require Import Base Machine Slice HeapSpec QueueSpec StackSpec HeapModel ArrayQueueModel StackModel.
From Verif Require Import HeapProofs ArrayQueueProofs StackProofs GrowthSpec GrowthModel.
Require Import ZifyBool ZifyNat.
Ltac Zify.zify_post_hook ::= Z.div_mod_to_equations.

Section Amortise.
  Context {S O R : Type} (step : S -> O -> option (S * R)) (cost : S -> O -> nat) (Inv : S -> Prop)
          (phi : S -> nat) (pay : O -> nat).
  Hypothesis Hstep : forall s o, Inv s ->
    exists s' r, step s o = Some (s', r) /\ Inv s' /\ cost s o + phi s' <= phi s + pay o.
  Lemma amortise ops : forall s, Inv s -> spent step cost s ops <= phi s + list_sum (map pay ops).
  Proof.
    induction ops as [|o ops IH]; intros s Hi; cbn [spent map list_sum fold_right]; [lia|].
    destruct (Hstep s o Hi) as (s' & r & E & Hi' & Hc). rewrite E. specialize (IH s' Hi').
    unfold list_sum in *. cbn [fold_right]. lia.
  Qed.
End Amortise.

Module HeapG.
Import HeapModel.
Section P.
  Context {A : Type} (zero : A) (compare : A -> A -> Z).
  Notation heap := (heap (A:=A)).
  Notation len h := (length (elements h)).

  Lemma set_at_some (l : list A) i v : i < length l -> exists l', set_at l i v = Some l' /\ length l' = length l.
  Proof.
    intros H. exists (list_set l i v). unfold set_at. destruct (Nat.ltb_spec i (length l)); [|lia].
    split; [reflexivity|apply list_set_length].
  Qed.

  Lemma sift_up_total fuel : forall els c v, c < fuel -> c < length els ->
    exists els', sift_up compare fuel els c v = Some els' /\ length els' = length els.
  Proof.
    induction fuel as [|fuel IH]; intros els c v Hf Hc; [lia|]. cbn [sift_up].
    destruct (Nat.eqb_spec c 0) as [->|Hn]; [now apply set_at_some|].
    destruct (nth_error els ((c - 1) / 2)) as [pv|] eqn:E.
    2:{ apply nth_error_None in E. lia. }
    destruct (compare v pv <=? 0)%Z; [|now apply set_at_some].
    destruct (set_at_some els c pv Hc) as (e1 & -> & El).
    destruct (IH e1 ((c - 1) / 2) v) as (e2 & E2 & El2); [lia|lia|].
    exists e2. split; [exact E2|lia].
  Qed.

  Lemma sift_down_total fuel : forall els n c dv, n <= c + fuel -> 0 < fuel -> c < n -> n <= length els ->
    exists els', sift_down compare fuel els n c dv = Some els' /\ length els' = length els.
  Proof.
    induction fuel as [|fuel IH]; intros els n c dv H1 H2 H3 H4; [lia|]. cbn [sift_down].
    assert (Hset : forall v, exists e1, set_at els c v = Some e1 /\ length e1 = length els) by (intros; apply set_at_some; lia).
    assert (Go : forall cidx, c < cidx -> cidx < n -> exists els',
      match nth_error els cidx with
      | None => None
      | Some cv => if (compare cv dv <=? 0)%Z
          then match set_at els c cv with None => None | Some els' => sift_down compare fuel els' n cidx dv end
          else set_at els c dv
      end = Some els' /\ length els' = length els).
    { intros cidx Ha Hb. destruct (nth_error els cidx) as [cv|] eqn:E.
      2:{ apply nth_error_None in E. lia. }
      destruct (compare cv dv <=? 0)%Z; [|apply Hset].
      destruct (Hset cv) as (e1 & -> & El). destruct (IH e1 n cidx dv) as (e2 & E2 & El2); try lia.
      exists e2. split; [exact E2|lia]. }
    destruct (Nat.ltb_spec (2 * c + 2) n).
    - destruct (nth_error els (2 * c + 1)) as [e1|] eqn:E1; [|apply nth_error_None in E1; lia].
      destruct (nth_error els (2 * c + 2)) as [e2|] eqn:E2; [|apply nth_error_None in E2; lia].
      destruct (compare e1 e2 <? 0)%Z; apply Go; lia.
    - destruct (Nat.leb_spec n (2 * c + 1)); [apply Hset|apply Go; lia].
  Qed.

  Definition Ok (h : heap) : Prop := size h <= len h /\ 16 <= len h.

  (** the length of the backing slice and the size after each call *)
  Lemma put_shape h v : Ok h -> exists h', put zero compare h v = Some h' /\ size h' = S (size h) /\
    len h' = (if len h <=? size h then 2 * len h else len h).
  Proof.
    intros [H1 H2]. unfold put. set (g := grow zero h).
    assert (Hg : size g = size h /\ len g = (if len h <=? size h then 2 * len h else len h)).
    { unfold g, grow. destruct (len h <=? size h); cbn [size elements]; split; auto.
      rewrite app_length, repeat_length. lia. }
    destruct Hg as [Gs Gl].
    destruct (sift_up_total (S (size g)) (elements g) (size g) v) as (e & -> & El); [lia| |].
    { rewrite Gl, Gs. destruct (Nat.leb_spec (len h) (size h)); lia. }
    cbn [option_map]. eexists. split; [reflexivity|]. cbn [size elements]. rewrite El, Gs, Gl. auto.
  Qed.

  Lemma slim_len (h : heap) : len (slimming h) =
    if (32 <=? len h) && (size h <=? len h / 2) then len h - len h / 2 / 2 else len h.
  Proof.
    unfold slimming. destruct (32 <=? len h); cbn [andb]; [|reflexivity].
    destruct (size h <=? len h / 2); cbn [elements]; [|reflexivity].
    rewrite firstn_length. lia.
  Qed.
  Lemma slim_size (h : heap) : size (slimming h) = size h.
  Proof. unfold slimming. destruct (32 <=? len h); [destruct (size h <=? len h / 2)|]; reflexivity. Qed.

  Lemma pop_shape h : Ok h -> exists h' r, pop compare h = Some (h', r) /\ size h' = size h - 1 /\
    len h' = (if negb (size h =? 0) && ((32 <=? len h) && (size h - 1 <=? len h / 2)) then len h - len h / 2 / 2 else len h).
  Proof.
    intros [H1 H2]. unfold pop. destruct (Nat.eqb_spec (size h) 0) as [E|E]; cbn [negb andb].
    { exists h, None. split; [reflexivity|]. split; [lia|reflexivity]. }
    destruct (nth_error (elements h) 0) as [t|] eqn:Et; [|apply nth_error_None in Et; lia].
    set (h1 := {| size := size h - 1; elements := elements h |}).
    pose proof (slim_len h1) as Hl. pose proof (slim_size h1) as Hs.
    set (g := slimming h1) in *. change (len h1) with (len h) in Hl. change (size h1) with (size h - 1) in Hl, Hs.
    destruct (Nat.eqb_spec (size g) 0) as [E0|E0].
    { exists g, (Some t). split; [reflexivity|]. split; [lia|exact Hl]. }
    assert (Hlt : size g < len g).
    { rewrite Hl, Hs. destruct ((32 <=? len h) && (size h - 1 <=? len h / 2)) eqn:C; lia. }
    destruct (nth_error (elements g) (size g)) as [d|] eqn:Ed; [|apply nth_error_None in Ed; lia].
    destruct (sift_down_total (S (size g)) (elements g) (size g) 0 d) as (e & -> & El); try lia.
    cbn [option_map]. eexists _, _. split; [reflexivity|]. cbn [size elements]. rewrite El. split; [lia|exact Hl].
  Qed.

  Lemma step_shape h o : Ok h -> exists h' r, step zero compare h o = Some (h', r) /\ Ok h' /\ size h' = heap_count (size h) o /\
    len h' = (if heap_made zero h o =? 0 then len h else heap_made zero h o) /\
    heap_made zero h o = match o with
      | HPut _ => if len h <=? size h then 2 * len h else 0
      | HPop => if negb (size h =? 0) && ((32 <=? len h) && (size h - 1 <=? len h / 2)) then len h - len h / 2 / 2 else 0
      | HReset => 16
      | _ => 0
      end.
  Proof.
    intros Hok. pose proof Hok as [H1 H2]. destruct o as [v| | | | | |]; cbn [step heap_count heap_made].
    - destruct (put_shape h v Hok) as (h' & -> & Es & El). cbn [option_map]. exists h', HUnit.
      assert (Em : (if len h <=? size h then length (elements (grow zero h)) else 0) = if len h <=? size h then 2 * len h else 0).
      { unfold grow. destruct (len h <=? size h); cbn [elements]; [rewrite app_length, repeat_length; lia|reflexivity]. }
      rewrite Em. unfold Ok. rewrite Es, El. clear -H1 H2.
      destruct (Nat.leb_spec (len h) (size h)) as [E|E]; cbn [Nat.eqb]; repeat split; try lia.
      destruct (Nat.eqb_spec (2 * len h) 0); lia.
    - destruct (pop_shape h Hok) as (h' & r & -> & Es & El). cbn [option_map]. exists h', (HVal r).
      assert (Em : (if size h =? 0 then 0 else
          if (32 <=? len h) && (size h - 1 <=? len h / 2) then len (slimming {| size := size h - 1; elements := elements h |}) else 0)
        = if negb (size h =? 0) && ((32 <=? len h) && (size h - 1 <=? len h / 2)) then len h - len h / 2 / 2 else 0).
      { destruct (size h =? 0); cbn [negb andb]; [reflexivity|].
        rewrite slim_len. cbn [size elements]. destruct ((32 <=? len h) && (size h - 1 <=? len h / 2)); reflexivity. }
      cbn [size elements]. cbv zeta. rewrite Em. unfold Ok. rewrite Es, El. clear -H1 H2.
      destruct (negb (size h =? 0) && ((32 <=? len h) && (size h - 1 <=? len h / 2))) eqn:C; repeat split; try lia.
      destruct (Nat.eqb_spec (len h - len h / 2 / 2) 0); lia.
    - unfold top. destruct (Nat.eqb_spec (size h) 0) as [E|E]; cbn [option_map].
      + exists h, (HVal None). repeat split; auto.
      + destruct (nth_error (elements h) 0) as [t|] eqn:Et; [|apply nth_error_None in Et; lia].
        exists h, (HVal (Some t)). repeat split; auto.
    - exists (clear h), HUnit. repeat split; cbn [clear size elements Nat.eqb]; lia.
    - exists (reset zero h), HUnit. repeat split; cbn; lia.
    - exists h, (HNat (size h)). repeat split; auto.
    - exists h, (HBool (size h <? 1)). repeat split; auto.
  Qed.

  Lemma new_ok : Ok (new zero). Proof. unfold Ok, new; cbn; lia. Qed.

  (** credit: three cells a slot, and fifteen for every element beyond two thirds *)
  Definition phi (h : heap) : nat := 3 * len h + (15 * size h - 10 * len h).
  Definition pay (o : heap_op A) : nat := match o with HPut _ => 15 | HPop => 3 | HReset => 16 | _ => 0 end.

  Lemma heap_step_cost h o : Ok h -> exists h' r, step zero compare h o = Some (h', r) /\ Ok h' /\
    heap_made zero h o + phi h' <= phi h + pay o.
  Proof.
    intros Hok. destruct (step_shape h o Hok) as (h' & r & E & Hok' & Es & El & Em).
    exists h', r. split; [exact E|]. split; [exact Hok'|]. unfold phi. rewrite El, Es, Em. clear E El Em Es.
    destruct Hok as [H1 H2]. destruct o as [v| | | | | |]; cbn [heap_count pay]; cbn [Nat.eqb]; try lia.
    - destruct (Nat.leb_spec (len h) (size h)); [destruct (Nat.eqb_spec (2 * len h) 0)|]; cbn [Nat.eqb]; lia.
    - destruct (negb (size h =? 0) && ((32 <=? len h) && (size h - 1 <=? len h / 2))) eqn:C; cbn [Nat.eqb]; [|lia].
      destruct (Nat.eqb_spec (len h - len h / 2 / 2) 0); lia.
  Qed.

  Lemma pay_sum ops : list_sum (map pay ops) =
    15 * calls (fun o => match o with HPut _ => true | _ => false end) ops +
    3 * calls (fun o => match o with HPop => true | _ => false end) ops +
    16 * calls (fun o => match o with HReset => true | _ => false end) ops.
  Proof.
    induction ops as [|o ops IH]; [reflexivity|]. unfold calls, list_sum in *. cbn [map fold_right filter].
    rewrite IH. destruct o; cbn [pay length]; lia.
  Qed.

  Lemma heap_work ops : spent (step zero compare) (heap_made zero) (new zero) ops <=
    48 + 15 * calls (fun o => match o with HPut _ => true | _ => false end) ops +
    3 * calls (fun o => match o with HPop => true | _ => false end) ops +
    16 * calls (fun o => match o with HReset => true | _ => false end) ops.
  Proof.
    pose proof (amortise (step zero compare) (heap_made zero) Ok phi pay heap_step_cost ops (new zero) new_ok) as H.
    rewrite pay_sum in H. change (phi (new zero)) with 48 in H. lia.
  Qed.

  (** memory *)
  Lemma mem_run ops : forall h p, Ok h -> len h <= Nat.max 31 (2 * p) ->
    at_most heap_count (fun n => n) (size h) ops p ->
    exists h', reach (step zero compare) h ops = Some h' /\ size h' = fold_left heap_count ops (size h) /\ len h' <= Nat.max 31 (2 * p).
  Proof.
    induction ops as [|o ops IH]; intros h p Hok Hl Hp; cbn [reach fold_left]; [eauto|].
    destruct (step_shape h o Hok) as (h' & r & E & Hok' & Es & El & Em). rewrite E, <- Es.
    pose proof (Hp 1) as P1. cbn [firstn fold_left] in P1. rewrite <- Es in P1.
    apply IH; auto.
    - rewrite El, Em. rewrite Es in P1. clear -P1 Hl Hok. destruct Hok as [H1 H2].
      destruct o as [v| | | | | |]; cbn [Nat.eqb]; cbn [heap_count] in P1; try lia.
      + destruct (Nat.leb_spec (len h) (size h)); [destruct (Nat.eqb_spec (2 * len h) 0)|]; cbn [Nat.eqb]; lia.
      + destruct (negb (size h =? 0) && ((32 <=? len h) && (size h - 1 <=? len h / 2))) eqn:C; cbn [Nat.eqb]; [|lia].
        destruct (Nat.eqb_spec (len h - len h / 2 / 2) 0); lia.
    - intros k. specialize (Hp (S k)). cbn [firstn fold_left] in Hp. rewrite <- Es in Hp. exact Hp.
  Qed.

  Lemma mem_now ops : forall h, Ok h -> len h <= Nat.max 31 (2 * size h) ->
    ~ In HClear ops ->
    exists h', reach (step zero compare) h ops = Some h' /\ size h' = fold_left heap_count ops (size h) /\
      len h' <= Nat.max 31 (2 * size h').
  Proof.
    induction ops as [|o ops IH]; intros h Hok Hl Hn; cbn [reach fold_left]; [eauto|].
    destruct (step_shape h o Hok) as (h' & r & E & Hok' & Es & El & Em). rewrite E, <- Es.
    apply IH; auto; [|intros H; apply Hn; now right].
    assert (o <> HClear) by (intros ->; apply Hn; now left).
    rewrite El, Em, Es. clear -H Hl Hok. destruct Hok as [H1 H2].
    destruct o as [v| | | | | |]; cbn [Nat.eqb heap_count]; try lia; try congruence.
    - destruct (Nat.leb_spec (len h) (size h)); [destruct (Nat.eqb_spec (2 * len h) 0)|]; cbn [Nat.eqb]; lia.
    - destruct (negb (size h =? 0) && ((32 <=? len h) && (size h - 1 <=? len h / 2))) eqn:C; cbn [Nat.eqb]; [|lia].
      destruct (Nat.eqb_spec (len h - len h / 2 / 2) 0); lia.
  Qed.

  Lemma heap_memory_peak ops p : at_most heap_count (fun n => n) 0 ops p ->
    exists h, reach (step zero compare) (new zero) ops = Some h /\ size h = fold_left heap_count ops 0 /\ len h <= Nat.max 31 (2 * p).
  Proof. intros H. apply (mem_run ops (new zero) p new_ok); [change (len (new zero)) with 16; lia|exact H]. Qed.
  Lemma heap_memory_now ops : ~ In HClear ops ->
    exists h, reach (step zero compare) (new zero) ops = Some h /\ size h = fold_left heap_count ops 0 /\ len h <= Nat.max 31 (2 * size h).
  Proof. intros H. apply (mem_now ops (new zero) new_ok); [change (len (new zero)) with 16; lia|exact H]. Qed.

  Lemma heap_counted ops h o : reach (step zero compare) (new zero) ops = Some h ->
    exists h' r, step zero compare h o = Some (h', r) /\
      len h' = if heap_made zero h o =? 0 then len h else heap_made zero h o.
  Proof.
    intros E. assert (Hok : Ok h).
    { revert E. generalize (new zero), new_ok. induction ops as [|a ops IH]; intros h0 Hh E; cbn [reach] in E; [congruence|].
      destruct (step_shape h0 a Hh) as (h1 & r & E1 & Hok' & _). rewrite E1 in E. eauto. }
    destruct (step_shape h o Hok) as (h' & r & E1 & _ & _ & El & _). eauto.
  Qed.
End P.
End HeapG.

Module QueueG.
Import ArrayQueueModel.
Section P.
  Context {A : Type} (zero : A).
  Notation queue := (queue (A:=A)).

  Lemma grow_cap (q q' : queue) : grow zero q = Some q' ->
    cap q' = (if cap q <=? size q then 2 * cap q else cap q) /\ size q' = size q.
  Proof.
    unfold grow. destruct (cap q <=? size q); [|intros [= <-]; auto].
    destruct (slice _ _ _); [|discriminate]. destruct (copy_at _ _ _); [|discriminate].
    destruct (slice _ _ _); [|discriminate]. destruct (copy_at _ _ _); [|discriminate].
    intros [= <-]. cbn [cap size]. split; [lia|reflexivity].
  Qed.
  Lemma slimming_cap (q q' : queue) : slimming zero q = Some q' ->
    cap q' = (if size q <=? cap q / 2 then cap q - cap q / 4 else cap q) /\ size q' = size q.
  Proof.
    unfold slimming. destruct (size q <=? cap q / 2); [|intros [= <-]; auto].
    destruct (end_ q <? start q).
    - destruct (slice _ _ _); [|discriminate]. destruct (copy_at _ _ _); [|discriminate].
      destruct (slice _ _ _); [|discriminate]. destruct (copy_at _ _ _); [|discriminate].
      intros [= <-]. auto.
    - destruct (slice _ _ _); [|discriminate]. destruct (copy_at _ _ _); [|discriminate]. intros [= <-]. auto.
  Qed.
  Lemma pushBack_cap (q q' : queue) v : pushBack zero q v = Some q' ->
    cap q' = (if cap q <=? size q then 2 * cap q else cap q) /\ size q' = S (size q).
  Proof.
    unfold pushBack. destruct (grow zero q) as [g|] eqn:E; [|discriminate]. apply grow_cap in E as [E1 E2].
    destruct (put_at _ _ _); [|discriminate]. intros [= <-]. cbn [cap size]. rewrite E1, E2. split; [reflexivity|lia].
  Qed.
  Lemma pushFront_cap (q q' : queue) v : pushFront zero q v = Some q' ->
    cap q' = (if cap q <=? size q then 2 * cap q else cap q) /\ size q' = S (size q).
  Proof.
    unfold pushFront. destruct (grow zero q) as [g|] eqn:E; [|discriminate]. apply grow_cap in E as [E1 E2].
    destruct (put_at _ _ _); [|discriminate]. intros [= <-]. cbn [cap size]. rewrite E1, E2. split; [reflexivity|lia].
  Qed.
  Definition slims (q : queue) : bool := negb (size q =? 0) && (size q - 1 <=? cap q / 2).
  Lemma popBack_cap (q q' : queue) r : popBack zero q = Some (q', r) ->
    cap q' = (if slims q then cap q - cap q / 4 else cap q) /\ size q' = size q - 1.
  Proof.
    unfold popBack, slims. destruct (Nat.eqb_spec (size q) 0) as [E|E]; cbn [negb andb].
    { intros [= <- <-]. split; [reflexivity|lia]. }
    destruct (nth_error _ _); [|discriminate].
    destruct (slimming zero _) as [g|] eqn:Eg; [|discriminate]. apply slimming_cap in Eg as [E1 E2].
    cbn [option_map]. intros [= <- _]. rewrite E1, E2. cbn [size cap]. auto.
  Qed.
  Lemma popFront_cap (q q' : queue) r : popFront zero q = Some (q', r) ->
    cap q' = (if slims q then cap q - cap q / 4 else cap q) /\ size q' = size q - 1.
  Proof.
    unfold popFront, slims. destruct (Nat.eqb_spec (size q) 0) as [E|E]; cbn [negb andb].
    { intros [= <- <-]. split; [reflexivity|lia]. }
    destruct (nth_error _ _); [|discriminate].
    destruct (slimming zero _) as [g|] eqn:Eg; [|discriminate]. apply slimming_cap in Eg as [E1 E2].
    cbn [option_map]. intros [= <- _]. rewrite E1, E2. cbn [size cap]. auto.
  Qed.

  (** the capacity, the size and the cost after each call *)
  Definition cap_after (q : queue) (o : queue_op A) : nat :=
    match o with
    | QPushBack _ | QPushFront _ => if cap q <=? size q then 2 * cap q else cap q
    | QPopBack | QPopFront => if slims q then cap q - cap q / 4 else cap q
    | _ => cap q
    end.
  Definition size_after (q : queue) (o : queue_op A) : nat :=
    match o with
    | QPushBack _ | QPushFront _ => S (size q)
    | QPopBack | QPopFront => size q - 1
    | _ => size q
    end.
  Definition busy (q : queue) (o : queue_op A) : bool :=
    match o with
    | QPushBack _ | QPushFront _ => cap q <=? size q
    | QPopBack | QPopFront => slims q
    | _ => false
    end.

  Lemma step_shape q l o : Rel q l -> exists q', step zero q o = Some (q', snd (queue_spec l o)) /\
    Rel q' (fst (queue_spec l o)) /\ cap q' = cap_after q o /\ size q' = size_after q o /\
    queue_made zero q o = if busy q o then length (data q') else 0.
  Proof.
    intros HR. destruct (step_rel zero q l o HR) as (q' & E & HR'). exists q'. split; [exact E|]. split; [exact HR'|].
    destruct o as [v|v| | | |i| |f]; cbn [step] in E; cbn [cap_after size_after busy queue_made].
    - destruct (pushBack zero q v) as [g|] eqn:Eg; [|discriminate]. cbn [option_map] in E. assert (q' = g) as -> by congruence.
      apply pushBack_cap in Eg as [H1 H2]. cbn [room]. auto.
    - destruct (pushFront zero q v) as [g|] eqn:Eg; [|discriminate]. cbn [option_map] in E. assert (q' = g) as -> by congruence.
      apply pushFront_cap in Eg as [H1 H2]. cbn [room]. auto.
    - destruct (popBack zero q) as [[g r]|] eqn:Eg; [|discriminate]. cbn [option_map] in E. assert (q' = g) as -> by congruence.
      apply popBack_cap in Eg as [H1 H2]. cbn [room option_map fst]. auto.
    - destruct (popFront zero q) as [[g r]|] eqn:Eg; [|discriminate]. cbn [option_map] in E. assert (q' = g) as -> by congruence.
      apply popFront_cap in Eg as [H1 H2]. cbn [room option_map fst]. auto.
    - assert (q' = q) as -> by congruence. auto.
    - assert (q' = q) as -> by congruence. auto.
    - destruct (values q); [|discriminate]. cbn [option_map] in E. assert (q' = q) as -> by congruence. auto.
    - destruct (traverse q f); [|discriminate]. cbn [option_map] in E. assert (q' = q) as -> by congruence. auto.
  Qed.

  Definition Ok (q : queue) : Prop := exists l, Rel q l.
  Definition phi (q : queue) : nat := 3 * cap q + (15 * size q - 10 * cap q).
  Definition pay (o : queue_op A) : nat :=
    match o with QPushBack _ | QPushFront _ => 15 | QPopBack | QPopFront => 3 | _ => 0 end.

  Lemma queue_step_cost q o : Ok q -> exists q' r, step zero q o = Some (q', r) /\ Ok q' /\
    queue_made zero q o + phi q' <= phi q + pay o.
  Proof.
    intros [l HR]. destruct (step_shape q l o HR) as (q' & E & HR' & Ec & Es & Em).
    eexists _, _. split; [exact E|]. split; [eexists; exact HR'|]. rewrite Em.
    replace (length (data q')) with (cap q') by (symmetry; apply HR').
    unfold phi. rewrite Ec, Es. clear Ec Es Em E HR'. destruct HR as (H3 & _ & _ & Hs & _).
    destruct o as [v|v| | | |i| |f]; cbn [cap_after size_after busy pay]; try lia;
      try (destruct (Nat.leb_spec (cap q) (size q)); lia);
      unfold slims; destruct (negb (size q =? 0) && (size q - 1 <=? cap q / 2)) eqn:C; lia.
  Qed.

  Lemma pay_sum ops : list_sum (map pay ops) =
    15 * calls (fun o => match o with QPushBack _ | QPushFront _ => true | _ => false end) ops +
    3 * calls (fun o => match o with QPopBack | QPopFront => true | _ => false end) ops.
  Proof.
    induction ops as [|o ops IH]; [reflexivity|]. unfold calls, list_sum in *. cbn [map fold_right filter].
    rewrite IH. destruct o; cbn [pay length]; lia.
  Qed.

  Lemma queue_work ops : spent (step zero) (queue_made zero) (new zero) ops <=
    24 + 15 * calls (fun o => match o with QPushBack _ | QPushFront _ => true | _ => false end) ops +
    3 * calls (fun o => match o with QPopBack | QPopFront => true | _ => false end) ops.
  Proof.
    pose proof (amortise (step zero) (queue_made zero) Ok phi pay queue_step_cost ops (new zero)) as H.
    rewrite pay_sum in H. change (phi (new zero)) with 24 in H. rewrite <- Nat.add_assoc. apply H. exists []. apply new_rel.
  Qed.

  Lemma mem_now ops : forall q l, Rel q l -> cap q <= Nat.max 8 (2 * length l) ->
    exists q', reach (step zero) q ops = Some q' /\ length (data q') <= Nat.max 8 (2 * length (sreach queue_spec l ops)).
  Proof.
    induction ops as [|o ops IH]; intros q l HR Hc; cbn [reach sreach].
    - exists q. split; [reflexivity|]. replace (length (data q)) with (cap q) by (symmetry; apply HR). exact Hc.
    - destruct (step_shape q l o HR) as (q' & E & HR' & Ec & Es & Em). rewrite E. apply IH; [exact HR'|].
      replace (length (fst (queue_spec l o))) with (size q') by (symmetry; apply HR').
      replace (length l) with (size q) in Hc by (symmetry; apply HR).
      rewrite Ec, Es. destruct HR as (H3 & _ & _ & Hs & _). clear Ec Es Em E HR' IH.
      destruct o as [v|v| | | |i| |f]; cbn [cap_after size_after]; try lia;
        try (destruct (Nat.leb_spec (cap q) (size q)); lia);
        unfold slims; destruct (negb (size q =? 0) && (size q - 1 <=? cap q / 2)) eqn:C; lia.
  Qed.

  Lemma queue_memory ops : exists q, reach (step zero) (new zero) ops = Some q /\
    length (data q) <= Nat.max 8 (2 * length (sreach queue_spec [] ops)).
  Proof. apply mem_now; [apply new_rel|change (cap (new zero)) with 8; lia]. Qed.

  Lemma queue_counted ops q o : reach (step zero) (new zero) ops = Some q ->
    exists q' r, step zero q o = Some (q', r) /\
      length (data q') = if queue_made zero q o =? 0 then length (data q) else queue_made zero q o.
  Proof.
    intros E. destruct (sim_reach _ _ Rel (step_rel zero) ops _ _ (new_rel zero)) as (q0 & E0 & HR).
    rewrite E in E0. injection E0 as <-.
    destruct (step_shape q _ o HR) as (q' & Eo & HR' & Ec & Es & Em). eexists _, _. split; [exact Eo|].
    pose proof HR as (H3 & Hl & _). pose proof HR' as (H3' & Hl' & _). rewrite Em.
    destruct (busy q o) eqn:B; [destruct (Nat.eqb_spec (length (data q')) 0); lia|cbn [Nat.eqb]].
    rewrite Hl', Hl, Ec. destruct o; cbn [cap_after busy] in *; try reflexivity; try rewrite B; reflexivity.
  Qed.
End P.
End QueueG.

Module StackG.
Import SegStack SegStackP.
Section P.
  Context {A : Type} (zero : A).
  Notation st := (st (A:=A)).
  Definition blk (b : block (A:=A)) : nat := length (elements b).
  Definition growsize (n : nat) : nat := if n <=? 256 then 2 * n else 256 + n / 4.

  (** only the numbers: the length and fill of the top block, the lengths of the blocks below, of the cached block *)
  Record shape := { tl_ : nat; tc : nat; ds : list nat; ca : option nat }.
  Definition sh (s : st) : shape :=
    {| tl_ := blk (top s); tc := curp (top s); ds := map blk (downs s); ca := option_map blk (cache s) |}.
  Definition after (p : shape) (o : stack_op A) : shape :=
    match o with
    | Push _ =>
        if tc p =? tl_ p
        then {| tl_ := match ca p with Some b => b | None => growsize (tl_ p + list_sum (ds p)) end;
                tc := 1; ds := tl_ p :: ds p; ca := None |}
        else {| tl_ := tl_ p; tc := S (tc p); ds := ds p; ca := ca p |}
    | Pop =>
        match ds p with
        | d :: D => if tc p =? 1 then {| tl_ := d; tc := d; ds := D; ca := Some (tl_ p) |}
                    else {| tl_ := tl_ p; tc := tc p - 1; ds := ds p; ca := ca p |}
        | [] => {| tl_ := tl_ p; tc := tc p - 1; ds := ds p; ca := ca p |}
        end
    | Clear => {| tl_ := tl_ p; tc := 0; ds := []; ca := ca p |}
    | _ => p
    end.
  Definition made (p : shape) (o : stack_op A) : nat :=
    match o, ca p with
    | Push _, None => if tc p =? tl_ p then growsize (tl_ p + list_sum (ds p)) else 0
    | _, _ => 0
    end.

  Lemma content_length bs : Forall full bs -> length (content bs) = list_sum (map blk bs).
  Proof.
    induction 1 as [|b bs [F1 F2] _ IH]; [reflexivity|]. cbn [content map]. unfold list_sum in *. cbn [fold_right].
    rewrite app_length, rev_length, IH. unfold used. rewrite firstn_length, F1. unfold blk. lia.
  Qed.
  Lemma size_sum s l : Rel s l -> size s = curp (top s) + list_sum (map blk (downs s)) /\ size s = length l.
  Proof.
    intros (H1 & H2 & H3 & H4 & H5 & H6 & H7). split; [|assumption]. rewrite H2, <- H1. cbn [content].
    rewrite app_length, rev_length, content_length by assumption. unfold used. rewrite firstn_length. lia.
  Qed.
  Lemma shape_eq a b c d a' b' c' d' : a = a' -> b = b' -> c = c' -> d = d' ->
    {| tl_ := a; tc := b; ds := c; ca := d |} = {| tl_ := a'; tc := b'; ds := c'; ca := d' |}.
  Proof. now intros -> -> -> ->. Qed.

  Lemma step_shape s l o : Rel s l -> exists s', step zero s o = Some (s', snd (stack_spec l o)) /\
    Rel s' (fst (stack_spec l o)) /\ sh s' = after (sh s) o /\ stack_made zero s o = made (sh s) o.
  Proof.
    intros HR. destruct (sim zero s l o HR) as (s' & E & HR'). exists s'. split; [exact E|]. split; [exact HR'|].
    destruct (size_sum s l HR) as [Hs _]. pose proof HR as (H1 & H2 & H3 & H4 & H5 & H6 & H7).
    destruct o as [v| | | | | |]; cbn [step] in E.
    - destruct (push zero s v) as [g|] eqn:Eg; [|discriminate]. cbn [option_map] in E. assert (s' = g) as -> by congruence. clear E.
      unfold push in Eg. destruct (_ <? _) eqn:L; [|discriminate].
      assert (Hcur : curp (top s) = length (elements (top s)) -> size s = blk (top s) + list_sum (map blk (downs s)))
        by (unfold blk in *; lia).
      split.
      + injection Eg as <-. unfold sh. cbn [top downs cache size elements curp]. unfold after. cbn [tl_ tc ds ca].
        unfold blk at 1. cbn [elements]. rewrite list_set_length. clear L. unfold grow, grownode.
        change (length (elements (top s))) with (blk (top s)) in *.
        destruct (Nat.eqb_spec (curp (top s)) (blk (top s))) as [Ef|Ef]; cbn [top downs cache size elements curp].
        * apply shape_eq; auto; destruct (cache s) as [c|]; cbn [elements option_map curp fst]; try reflexivity.
          rewrite repeat_length. unfold growsize. rewrite (Hcur Ef). reflexivity.
        * reflexivity.
      + clear Eg L. unfold stack_made, grownode, made, sh. cbn [tl_ tc ds ca].
        change (length (elements (top s))) with (blk (top s)) in *.
        destruct (cache s) as [c|] eqn:Ec; cbn [option_map snd].
        * destruct (curp (top s) =? blk (top s)); reflexivity.
        * destruct (Nat.eqb_spec (curp (top s)) (blk (top s))) as [Ef|Ef]; [|reflexivity].
          unfold growsize. rewrite (Hcur Ef). reflexivity.
    - destruct (pop s) as [[g r]|] eqn:Eg; [|discriminate]. assert (s' = g) as -> by congruence. clear E.
      split; [|reflexivity]. unfold pop in Eg. unfold sh at 2, after. cbn [tl_ tc ds ca].
      destruct (Nat.eqb_spec (size s) 0) as [E0|E0].
      { injection Eg as <- _. unfold sh. destruct (downs s) as [|d D] eqn:Ed.
        - cbn [map]. apply shape_eq; auto. lia.
        - exfalso. assert (0 < curp (top s)) by (apply H5; discriminate). lia. }
      destruct (downs s) as [|d D] eqn:Ed; cbn [map].
      + destruct (curp (top s)) as [|c] eqn:Ec; [discriminate|]. destruct (nth_error _ _); [|discriminate].
        injection Eg as <- _. unfold sh. cbn [top downs cache elements curp map]. apply shape_eq; auto. lia.
      + destruct (curp (top s)) as [|[|c]] eqn:Ec; [discriminate| |].
        * destruct (nth_error _ _); [|discriminate]. injection Eg as <- _. cbn [Nat.eqb].
          unfold sh. cbn [top downs cache option_map]. inversion H6 as [|? ? [F1 F2] F3]; subst. apply shape_eq; auto.
        * destruct (nth_error _ _); [|discriminate]. injection Eg as <- _. cbn [Nat.eqb].
          unfold sh. cbn [top downs cache elements curp map]. apply shape_eq; auto.
    - destruct (peek s); [|discriminate]. cbn [option_map] in E. assert (s' = s) as -> by congruence. auto.
    - assert (s' = clear s) as -> by congruence. auto.
    - assert (s' = s) as -> by congruence. auto.
    - assert (s' = s) as -> by congruence. auto.
    - destruct (values zero s); [|discriminate]. cbn [option_map] in E. assert (s' = s) as -> by congruence. auto.
  Qed.

  Lemma cells_sh s : stack_cells s = tl_ (sh s) + list_sum (ds (sh s)) + match ca (sh s) with Some c => c | None => 0 end.
  Proof. unfold stack_cells, sh. cbn [tl_ tc ds ca]. destruct (cache s); reflexivity. Qed.

  Lemma stack_counted cap ops s o : 0 < cap -> reach (step zero) (new_with_cap zero cap) ops = Some s ->
    exists s' r, step zero s o = Some (s', r) /\ stack_cells s' <= stack_cells s + stack_made zero s o.
  Proof.
    intros H E. destruct (sim_reach _ _ Rel (sim zero) ops _ _ (init_rel zero cap H)) as (s0 & E0 & HR).
    rewrite E in E0. injection E0 as <-.
    destruct (step_shape s _ o HR) as (s' & Eo & HR' & Esh & Em). eexists _, _. split; [exact Eo|].
    rewrite !cells_sh, Em, Esh. clear. destruct (sh s) as [t c D k]. unfold made.
    destruct o as [v| | | | | |]; cbn [after tl_ tc ds ca]; try lia.
    - destruct (c =? t); cbn [tl_ tc ds ca]; destruct k as [b|]; try lia; change (list_sum (t :: D)) with (t + list_sum D); lia.
    - destruct D as [|d D]; cbn [tl_ ds ca]; [lia|]. change (list_sum (d :: D)) with (d + list_sum D).
      destruct (c =? 1); cbn [tl_ ds ca]; [|change (list_sum (d :: D)) with (d + list_sum D)]; destruct k; lia.
    - change (list_sum []) with 0. lia.
  Qed.

  (** every block has at least a quarter of the slots of the blocks below it *)
  Fixpoint chain (l : list nat) : Prop :=
    match l with [] => True | b :: l' => (0 < b /\ list_sum l' <= 4 * b) /\ chain l' end.
  Definition stout (p : shape) : Prop :=
    chain (tl_ p :: ds p) /\ tc p <= tl_ p /\ (forall c, ca p = Some c -> tl_ p + list_sum (ds p) <= 4 * c).
  Lemma growsize_ge n : n <= 4 * growsize n. Proof. unfold growsize. destruct (Nat.leb_spec n 256); lia. Qed.
  Lemma growsize_le n : growsize n <= 2 * n. Proof. unfold growsize. destruct (Nat.leb_spec n 256); lia. Qed.

  Definition phi (p : shape) : nat := match ca p with Some _ => 0 | None => 10 * tc p end.
  Definition pay (o : stack_op A) : nat := match o with Push _ => 10 | _ => 0 end.
  Lemma list_sum_cons a l : list_sum (a :: l) = a + list_sum l. Proof. reflexivity. Qed.

  Lemma stout_after p o : stout p -> stout (after p o) /\ made p o + phi (after p o) <= phi p + pay o.
  Proof.
    destruct p as [t c D k]. unfold stout, after, made, phi. cbn [tl_ tc ds ca].
    intros (([C0 C1] & C2) & Hc & Hk). destruct o as [v| | | | | |]; cbn [pay];
      try (split; [split; [exact (conj (conj C0 C1) C2)|split; [exact Hc|exact Hk]]|cbn [ca tc]; destruct k; lia]).
    - destruct (Nat.eqb_spec c t) as [->|Hn]; cbn [tl_ tc ds ca].
      + destruct k as [b|].
        * specialize (Hk b eq_refl). cbn [chain]. rewrite !list_sum_cons.
          split; [|lia]. split; [split; [lia|split; [lia|exact C2]]|]. split; [|discriminate]. lia.
        * pose proof (growsize_ge (t + list_sum D)) as G1. cbn [chain]. rewrite !list_sum_cons.
          assert (G2 : growsize (t + list_sum D) <= 10 * t) by (unfold growsize; destruct (Nat.leb_spec (t + list_sum D) 256); lia).
          split; [|lia]. split; [split; [lia|split; [lia|exact C2]]|]. split; [|discriminate]. lia.
      + split; [|destruct k; lia]. cbn [chain]. split; [split; [lia|exact C2]|]. split; [lia|auto].
    - destruct D as [|d D].
      + cbn [tl_ tc ds ca]. split; [|destruct k; lia]. split; [exact (conj (conj C0 C1) C2)|]. split; [lia|exact Hk].
      + destruct (Nat.eqb_spec c 1) as [->|Hn]; cbn [tl_ tc ds ca].
        * rewrite list_sum_cons in *. destruct C2 as [C2 C3]. split; [|destruct k; lia].
          split; [exact (conj C2 C3)|]. split; [lia|]. intros c [= <-]. lia.
        * split; [|destruct k; lia]. split; [exact (conj (conj C0 C1) C2)|]. split; [lia|exact Hk].
    - cbn [tl_ tc ds ca]. split; [|destruct k; lia]. cbn [chain]. change (list_sum []) with 0 in *. split; [split; [lia|exact Logic.I]|].
      split; [lia|]. intros b Hb. specialize (Hk b Hb). lia.
  Qed.

  Definition Ok (s : st) : Prop := stout (sh s) /\ exists l, Rel s l.
  Lemma stack_step_cost s o : Ok s -> exists s' r, step zero s o = Some (s', r) /\ Ok s' /\
    stack_made zero s o + phi (sh s') <= phi (sh s) + pay o.
  Proof.
    intros [Hst [l HR]]. destruct (step_shape s l o HR) as (s' & E & HR' & Esh & Em).
    destruct (stout_after (sh s) o Hst) as [Hst' Hp]. eexists _, _. split; [exact E|]. rewrite Em. unfold Ok. rewrite Esh.
    split; [|exact Hp]. split; [exact Hst'|eexists; exact HR'].
  Qed.
  Lemma init_ok cap : 0 < cap -> Ok (new_with_cap zero cap).
  Proof.
    intros H. split; [|eexists; apply init_rel; exact H]. unfold stout, sh, blk. cbn. rewrite repeat_length.
    split; [split; [lia|exact Logic.I]|]. split; [lia|discriminate].
  Qed.
  Lemma pay_sum ops : list_sum (map pay ops) = 10 * calls (fun o => match o with Push _ => true | _ => false end) ops.
  Proof.
    induction ops as [|o ops IH]; [reflexivity|]. unfold calls in *. cbn [map filter]. rewrite list_sum_cons.
    rewrite IH. destruct o; cbn [pay length]; lia.
  Qed.
  Lemma stack_work cap ops : 0 < cap -> spent (step zero) (stack_made zero) (new_with_cap zero cap) ops <=
    10 * calls (fun o => match o with Push _ => true | _ => false end) ops.
  Proof.
    intros H. pose proof (amortise (step zero) (stack_made zero) Ok (fun s => phi (sh s)) pay stack_step_cost ops _ (init_ok cap H)) as Ha.
    rewrite pay_sum in Ha. exact Ha.
  Qed.

  (** memory, by the largest size so far *)
  Lemma mem_peak ops : forall s l m p, Rel s l -> 2 * p <= m ->
    tl_ (sh s) <= m -> (forall c, ca (sh s) = Some c -> c <= m) ->
    at_most (fun l o => fst (stack_spec l o)) (@length A) l ops p ->
    exists s', reach (step zero) s ops = Some s' /\ stack_cells s' <= p + 2 * m.
  Proof.
    induction ops as [|o ops IH]; intros s l m p HR Hm Ht Hc Hp; cbn [reach].
    - exists s. split; [reflexivity|]. rewrite cells_sh. specialize (Hp 0). cbn [firstn fold_left] in Hp.
      destruct (size_sum s l HR) as [S1 S2]. unfold sh in *. cbn [tl_ tc ds ca] in *.
      destruct (cache s) as [c|]; cbn [option_map] in *; [specialize (Hc _ eq_refl)|]; lia.
    - destruct (step_shape s l o HR) as (s' & E & HR' & Esh & Em). rewrite E.
      pose proof (Hp 0) as P0. cbn [firstn fold_left] in P0.
      destruct (size_sum s l HR) as [S1 S2].
      assert (Hsum : tc (sh s) + list_sum (ds (sh s)) <= p) by (unfold sh; cbn [tc ds]; lia). clear S1 S2.
      destruct (sh s) as [t c D k]. cbn [tl_ tc ds ca] in *.
      apply (IH s' (fst (stack_spec l o)) m p HR' Hm).
      + rewrite Esh. destruct o as [v| | | | | |]; cbn [after tl_ tc ds ca]; auto.
        * destruct (Nat.eqb_spec c t) as [->|]; cbn [tl_ tc ds ca]; [|lia].
          destruct k as [b|]; [now apply Hc|]. pose proof (growsize_le (t + list_sum D)). lia.
        * destruct D as [|d D]; cbn [tl_]; [lia|]. rewrite list_sum_cons in Hsum. destruct (c =? 1); cbn [tl_]; lia.
      + rewrite Esh. destruct o as [v| | | | | |]; cbn [after tl_ tc ds ca]; auto.
        * destruct (c =? t); cbn [ca]; [discriminate|auto].
        * destruct D as [|d D]; cbn [ca]; [auto|]. destruct (c =? 1); cbn [ca]; [|auto]. intros b [= <-]. lia.
      + intros j. exact (Hp (S j)).
  Qed.
  Lemma stack_memory_peak cap ops p : 0 < cap ->
    at_most (fun l o => fst (stack_spec l o)) (@length A) [] ops p ->
    exists s, reach (step zero) (new_with_cap zero cap) ops = Some s /\ stack_cells s <= p + 2 * Nat.max cap (2 * p).
  Proof.
    intros H Hp. apply (mem_peak ops _ [] (Nat.max cap (2 * p)) p); [now apply init_rel|lia| |discriminate|exact Hp].
    unfold sh, blk; cbn. rewrite repeat_length. lia.
  Qed.

  (** memory, by the size now, as long as Clear is not used: no block has more than twice the slots below it *)
  Fixpoint lean (cap : nat) (l : list nat) : Prop :=
    match l with [] => False | [b] => b = cap | b :: l' => b <= 2 * list_sum l' /\ lean cap l' end.
  Definition trim (cap : nat) (p : shape) : Prop :=
    lean cap (tl_ p :: ds p) /\ (forall c, ca p = Some c -> c <= 2 * (tl_ p + list_sum (ds p))).
  Lemma trim_after cap p o : o <> Clear -> trim cap p -> trim cap (after p o).
  Proof.
    destruct p as [t c D k]. unfold trim. cbn [tl_ tc ds ca]. intros Ho (C1 & Hk).
    destruct o as [v| | | | | |]; cbn [after tl_ tc ds ca]; try (split; assumption); try congruence.
    - destruct (c =? t); cbn [tl_ tc ds ca]; [|split; assumption]. split; [|discriminate].
      split; [|exact C1]. rewrite list_sum_cons. destruct k as [b|]; [now apply Hk|apply growsize_le].
    - destruct D as [|d D]; cbn [tl_ tc ds ca]; [split; assumption|].
      destruct (c =? 1); cbn [tl_ tc ds ca]; [|split; assumption]. destruct C1 as [C1 C2]. split; [exact C2|].
      intros b [= <-]. rewrite list_sum_cons in C1. exact C1.
  Qed.
  Lemma mem_now cap ops : forall s l, Rel s l -> trim cap (sh s) -> ~ In Clear ops ->
    exists s', reach (step zero) s ops = Some s' /\ stack_cells s' <= Nat.max (3 * cap) (9 * length (sreach stack_spec l ops)).
  Proof.
    induction ops as [|o ops IH]; intros s l HR Ht Hn; cbn [reach sreach].
    - exists s. split; [reflexivity|]. rewrite cells_sh. destruct (size_sum s l HR) as [S1 S2].
      assert (Hsum : length l = tc (sh s) + list_sum (ds (sh s))) by (unfold sh; cbn [tc ds]; lia). clear S1 S2. rewrite Hsum.
      destruct (sh s) as [t c D k]. destruct Ht as [C1 Hk]. cbn [tl_ tc ds ca] in *.
      assert (Hk' : match k with Some c => c | None => 0 end <= 2 * (t + list_sum D)) by (destruct k; [now apply Hk|lia]).
      destruct D as [|d D]; cbn [lean] in C1; [change (list_sum []) with 0 in *; lia|].
      destruct C1 as [C1 _]. lia.
    - destruct (step_shape s l o HR) as (s' & E & HR' & Esh & Em). rewrite E. apply IH; auto.
      + rewrite Esh. apply trim_after; auto. intros ->. apply Hn. now left.
      + intros H. apply Hn. now right.
  Qed.
  Lemma stack_memory_now cap ops : 0 < cap -> ~ In Clear ops ->
    exists s, reach (step zero) (new_with_cap zero cap) ops = Some s /\
      stack_cells s <= Nat.max (3 * cap) (9 * length (sreach stack_spec [] ops)).
  Proof.
    intros H Hn. apply mem_now; [now apply init_rel| |exact Hn]. unfold trim, sh, blk. cbn. rewrite repeat_length.
    split; [reflexivity|discriminate].
  Qed.

  (** the block at the bottom stays until Clear *)
  Definition bottom (p : shape) : nat := last (ds p) (tl_ p).
  Lemma last_cons (a d : nat) l : last (a :: l) d = last l a.
  Proof. revert a d. induction l as [|b l IH]; intros a d; [reflexivity|]. cbn [last] in *. destruct l; [reflexivity|]. apply IH. Qed.
  Lemma bottom_after p o : o <> Clear -> bottom (after p o) = bottom p.
  Proof.
    destruct p as [t c D k]. unfold bottom. intros Ho. destruct o as [v| | | | | |]; cbn [after tl_ tc ds ca]; auto; try congruence.
    - destruct (c =? t); cbn [tl_ ds]; [apply last_cons|reflexivity].
    - destruct D as [|d D]; [reflexivity|]. destruct (c =? 1); cbn [tl_ ds]; [symmetry; apply last_cons|reflexivity].
  Qed.
  Lemma bottom_cells s : bottom (sh s) <= stack_cells s.
  Proof.
    rewrite cells_sh. destruct (sh s) as [t c D k]. unfold bottom. cbn [tl_ ds ca].
    assert (H : last D t <= t + list_sum D).
    { clear. revert t. induction D as [|d D IH]; intros t; [cbn; lia|]. rewrite last_cons, list_sum_cons. specialize (IH d). lia. }
    lia.
  Qed.
  Lemma bottom_run ops : forall s l, Rel s l -> ~ In Clear ops ->
    exists s', reach (step zero) s ops = Some s' /\ bottom (sh s') = bottom (sh s).
  Proof.
    induction ops as [|o ops IH]; intros s l HR Hn; cbn [reach]; [eauto|].
    destruct (step_shape s l o HR) as (s' & E & HR' & Esh & Em). rewrite E.
    destruct (IH s' _ HR') as (s2 & E2 & H2); [intros H; apply Hn; now right|]. exists s2. split; [exact E2|].
    rewrite H2, Esh. apply bottom_after. intros ->. apply Hn. now left.
  Qed.

  Lemma push_many v n : forall s l, Rel s l -> n <= tl_ (sh s) - tc (sh s) -> ca (sh s) = None ->
    exists s', reach (step zero) s (repeat (Push v) n) = Some s' /\ Rel s' (repeat v n ++ l) /\
      sh s' = {| tl_ := tl_ (sh s); tc := tc (sh s) + n; ds := ds (sh s); ca := None |}.
  Proof.
    induction n as [|n IH]; intros s l HR Hle Hca; cbn [repeat reach].
    - exists s. split; [reflexivity|]. split; [exact HR|]. destruct (sh s) as [t c D k]. cbn [tl_ tc ds ca] in *. subst k.
      f_equal. lia.
    - destruct (step_shape s l (Push v) HR) as (s' & E & HR' & Esh & Em). rewrite E.
      destruct (sh s) as [t c D k]. cbn [tl_ tc ds ca after] in *. subst k.
      destruct (Nat.eqb_spec c t); [lia|].
      destruct (IH s' _ HR') as (s2 & E2 & HR2 & Es2);
        [rewrite Esh; cbn [tl_ tc]; lia|rewrite Esh; reflexivity|].
      exists s2. split; [exact E2|]. split.
      + replace ((v :: repeat v n) ++ l) with (repeat v n ++ v :: l); [exact HR2|].
        change (v :: l) with ([v] ++ l). rewrite app_assoc. f_equal. now rewrite <- repeat_cons.
      + rewrite Es2, Esh. cbn [tl_ tc ds]. f_equal. lia.
  Qed.
  Lemma reach_app a : forall s b, reach (step zero) s (a ++ b) = match reach (step zero) s a with Some s' => reach (step zero) s' b | None => None end.
  Proof.
    induction a as [|o a IH]; intros s b; cbn [app reach]; [reflexivity|].
    destruct (step zero s o) as [[s' r]|]; [apply IH|reflexivity].
  Qed.

  (** filling the top block and pushing once more makes a block of a quarter of the contents or more *)
  Lemma fill_up v s l : Rel s l -> ca (sh s) = None ->
    exists n s' , reach (step zero) s (repeat (Push v) n) = Some s' /\ 0 < n /\ Rel s' (repeat v n ++ l) /\ ca (sh s') = None /\
      length l <= 4 * tl_ (sh s').
  Proof.
    intros HR Hca. pose proof HR as (_ & _ & H3 & _). destruct (size_sum s l HR) as [S1 S2].
    destruct (push_many v (tl_ (sh s) - tc (sh s)) s l HR) as (s1 & E1 & HR1 & Es1); [lia|exact Hca|].
    destruct (step_shape s1 _ (Push v) HR1) as (s2 & E2 & HR2 & Esh & Em).
    exists (S (tl_ (sh s) - tc (sh s))), s2.
    assert (Er : repeat (Push v) (S (tl_ (sh s) - tc (sh s))) = repeat (Push v) (tl_ (sh s) - tc (sh s)) ++ [Push v])
      by (cbn [repeat]; apply repeat_cons).
    rewrite Er, reach_app, E1. cbn [reach]. rewrite E2. split; [reflexivity|]. split; [lia|].
    split; [exact HR2|]. rewrite Esh, Es1.
    assert (Hle : tc (sh s) <= tl_ (sh s)) by exact H3.
    assert (Hsz : length l = tc (sh s) + list_sum (ds (sh s))) by (unfold sh; cbn [tc ds]; lia).
    cbn [after tl_ tc ds ca]. replace (tc (sh s) + (tl_ (sh s) - tc (sh s))) with (tl_ (sh s)) by lia.
    rewrite Nat.eqb_refl. cbn [ca tl_]. split; [reflexivity|].
    pose proof (growsize_ge (tl_ (sh s) + list_sum (ds (sh s)))). lia.
  Qed.
  Lemma many v n : forall s l, Rel s l -> ca (sh s) = None ->
    exists m s', reach (step zero) s (repeat (Push v) m) = Some s' /\ Rel s' (repeat v m ++ l) /\ ca (sh s') = None /\
      n <= length (repeat v m ++ l).
  Proof.
    induction n as [|n IH]; intros s l HR Hca.
    - exists 0, s. cbn [repeat reach app]. split; [reflexivity|]. split; [exact HR|]. split; [exact Hca|lia].
    - destruct (IH s l HR Hca) as (m & s1 & E1 & HR1 & Hc1 & Hn).
      destruct (fill_up v s1 _ HR1 Hc1) as (k & s2 & E2 & Hk & HR2 & Hc2 & _).
      exists (m + k), s2. rewrite repeat_app, reach_app, E1, E2. split; [reflexivity|].
      replace (repeat v (m + k) ++ l) with (repeat v k ++ repeat v m ++ l)
        by (rewrite app_assoc, <- repeat_app; f_equal; f_equal; lia).
      split; [exact HR2|]. split; [exact Hc2|]. rewrite app_length, repeat_length. lia.
  Qed.

  Lemma sreach_clear (a : list (stack_op A)) : forall l b, sreach stack_spec l (a ++ Clear :: b) = sreach stack_spec [] b.
  Proof. induction a as [|o a IH]; intros l b; cbn [app sreach]; [reflexivity|apply IH]. Qed.

  Lemma clear_keeps (v : A) n : exists m, forall ops, ~ In Clear ops -> exists s,
    reach (step zero) (new zero) (repeat (Push v) m ++ Clear :: ops) = Some s /\ n <= stack_cells s /\
    sreach stack_spec [] (repeat (Push v) m ++ Clear :: ops) = sreach stack_spec [] ops.
  Proof.
    assert (HR : Rel (new zero) []) by (apply (init_rel zero 8); lia).
    destruct (many v (4 * n) (new zero) [] HR eq_refl) as (m & s1 & E1 & HR1 & Hc1 & Hn).
    destruct (fill_up v s1 _ HR1 Hc1) as (k & s2 & E2 & Hk & HR2 & Hc2 & Hq).
    exists (m + k). intros ops Ho. rewrite repeat_app, !reach_app, E1, E2. cbn [reach].
    destruct (step_shape s2 _ Clear HR2) as (s3 & E3 & HR3 & Esh & _). rewrite E3.
    destruct (bottom_run ops s3 _ HR3 Ho) as (s4 & E4 & Hb). exists s4. split; [exact E4|].
    rewrite <- repeat_app, sreach_clear. split; [|reflexivity].
    pose proof (bottom_cells s4) as Hc. rewrite Hb, Esh in Hc. unfold bottom in Hc. cbn [after tl_ ds last] in Hc. lia.
  Qed.
End P.
End StackG.
