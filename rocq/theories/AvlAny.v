(** Whatever the stored heights are - also after int8 overflow - an operation that does not panic keeps the entries in
    order and answers correctly. *)
From Verif Require Import Base Bind Machine OrderSpec SMapSpec SMapFacts AvlTree AvlSpec AvlModel AvlProofs.
Local Open Scope Z_scope.

Section Any.
  Context {K V : Type} (st : style) (d : Z).
  Notation tree := (tree K V).
  Implicit Types (t l r : tree).

  Lemma fixup_elems c (k : K) (v : V) l r : elems (fixup st c k v l r) = elems l ++ (k, v) :: elems r.
  Proof.
    destruct st; cbn [fixup]; unfold updateHeight, updateHeightOneChild; [|reflexivity].
    destruct (getHeight l >? getHeight r); reflexivity.
  Qed.

  Lemma rebalance_elems t t' b : rebalance st d t = Some (t', b) -> elems t' = elems t.
  Proof.
    destruct t as [|h k v l r]; [discriminate|]. cbn [rebalance].
    destruct (d <=? _); [|destruct (_ <=? _)].
    - destruct l as [|lh lk lv ll lr]; [discriminate|].
      destruct (getHeight lr >? getHeight ll).
      + destruct lr as [|sh sk sv c0 c1]; cbn [rightRotateWithLeft]; [discriminate|].
        intros E1. injection E1 as <- <-. rewrite !fixup_elems. cbn [elems].
        repeat (rewrite <- app_assoc; cbn [app]). reflexivity.
      + cbn [rightRotate]. intros E1. injection E1 as <- <-. rewrite !fixup_elems. cbn [elems].
        repeat (rewrite <- app_assoc; cbn [app]). reflexivity.
    - destruct r as [|rh rk rv rl rr]; [discriminate|].
      destruct (getHeight rl >? getHeight rr).
      + destruct rl as [|sh sk sv c0 c1]; cbn [leftRotateWithRight]; [discriminate|].
        intros E1. injection E1 as <- <-. rewrite !fixup_elems. cbn [elems].
        repeat (rewrite <- app_assoc; cbn [app]). reflexivity.
      + cbn [leftRotate]. intros E1. injection E1 as <- <-. rewrite !fixup_elems. cbn [elems].
        repeat (rewrite <- app_assoc; cbn [app]). reflexivity.
    - destruct (getHeight l >? getHeight r); destruct (h =? _); intros E1; injection E1 as <- <-; reflexivity.
  Qed.

  Lemma neighboring_elems dir t : forall t' e rb, neighboring st d dir t = Some (t', e, rb) ->
    elems t = (if dir then elems t' ++ [e] else e :: elems t').
  Proof.
    induction t as [|h k v l IHl r IHr]; intros t' e rb; [discriminate|]. cbn [neighboring].
    destruct dir; cbn [child with_child negb].
    - destruct r as [|rh rk rv rl rr] eqn:Er.
      + intros E1. injection E1 as <- <- <-. reflexivity.
      + rewrite <- Er in *. destruct (neighboring st d true r) as [[[s' e'] b']|]; [|discriminate].
        specialize (IHr _ _ _ eq_refl). cbn [elems]. rewrite IHr. destruct b'.
        * destruct (rebalance st d (N h k v l s')) as [[t1 b1]|] eqn:E1; [|discriminate].
          intros E2. injection E2 as <- <- <-. rewrite (rebalance_elems _ _ _ E1). cbn [elems]. rewrite <- app_assoc. reflexivity.
        * intros E2. injection E2 as <- <- <-. cbn [elems]. rewrite <- app_assoc. reflexivity.
    - destruct l as [|lh lk lv ll lr] eqn:El.
      + intros E1. injection E1 as <- <- <-. reflexivity.
      + rewrite <- El in *. destruct (neighboring st d false l) as [[[s' e'] b']|]; [|discriminate].
        specialize (IHl _ _ _ eq_refl). cbn [elems]. rewrite IHl. destruct b'.
        * destruct (rebalance st d (N h k v s' r)) as [[t1 b1]|] eqn:E1; [|discriminate].
          intros E2. injection E2 as <- <- <-. rewrite (rebalance_elems _ _ _ E1). reflexivity.
        * intros E2. injection E2 as <- <- <-. reflexivity.
  Qed.

  Section Ops.
    Context (ltb : K -> K -> bool) (W : weak_order ltb) (cmp : K -> K -> Z) (Hcmp : ex_cmp ltb cmp).

    Ltac side3 ck key := destruct (cmp_cases ltb cmp Hcmp ck key) as [[Hc Ho]|[[Hc Ho]|[Hc Ho]]]; rewrite Hc;
      [change (0 <? 0) with false; change (0 =? 0) with true
      |change (1 <? 0) with false; change (1 =? 0) with false; change (1 =? 1) with true
      |change (-1 <? 0) with true]; cbv iota.

    Lemma put_any hit key v t : forall alone t' ex rb, strictly_sorted ltb (elems t) ->
      put cmp st d hit key v t alone = Some (t', ex, rb) ->
        ex = match sames ltb key (elems t) with [] => false | _ => true end /\
        elems t' = match sames ltb key (elems t) with
                   | [] => write ltb key (key, v) (elems t)
                   | x :: _ => write ltb key (hit x) (elems t)
                   end.
    Proof.
      induction t as [|h ck cv l IHl r IHr]; intros alone t' ex rb Hs.
      - cbn [put]. intros E1. injection E1 as <- <- <-. auto.
      - cbn [elems] in Hs |- *. destruct (strict_mid ltb _ _ _ Hs) as (Sl & Sr & Ll & Lr).
        cbn [put]. side3 ck key.
        + destruct (put cmp st d hit key v l (is_nil r)) as [[[l' ex'] rb']|] eqn:E1; [|discriminate].
          destruct (IHl _ _ _ _ Sl E1) as (X1 & X2).
          destruct (cut_left ltb W (elems l) (ck, cv) (elems r) key Ho) as (C1 & C2 & C3).
          { intros y Hy. apply (lt_asym _ W). auto. }
          unfold write in *. rewrite C1, C2, C3.
          assert (HX : elems (N h ck cv l' r) =
            match sames ltb key (elems l) with
            | [] => before ltb key (elems l) ++ (key, v) :: after ltb key (elems l) ++ (ck, cv) :: elems r
            | x :: _ => before ltb key (elems l) ++ hit x :: after ltb key (elems l) ++ (ck, cv) :: elems r
            end).
          { cbn [elems]. rewrite X2. destruct (sames ltb key (elems l)); rewrite <- app_assoc; reflexivity. }
          destruct (ex' || negb rb')%bool.
          * intros E2. injection E2 as <- <- <-. auto.
          * destruct (rebalance st d (N h ck cv l' r)) as [[t1 b1]|] eqn:E2; [|discriminate].
            intros E3. injection E3 as <- <- <-. rewrite (rebalance_elems _ _ _ E2). auto.
        + destruct (put cmp st d hit key v r (is_nil l)) as [[[r' ex'] rb']|] eqn:E1; [|discriminate].
          destruct (IHr _ _ _ _ Sr E1) as (X1 & X2).
          destruct (cut_right ltb W (elems l) (ck, cv) (elems r) key Ho) as (C1 & C2 & C3).
          { intros y Hy. apply (lt_asym _ W). auto. }
          unfold write in *. rewrite C1, C2, C3.
          assert (HX : elems (N h ck cv l r') =
            match sames ltb key (elems r) with
            | [] => (elems l ++ (ck, cv) :: before ltb key (elems r)) ++ (key, v) :: after ltb key (elems r)
            | x :: _ => (elems l ++ (ck, cv) :: before ltb key (elems r)) ++ hit x :: after ltb key (elems r)
            end).
          { cbn [elems]. rewrite X2. destruct (sames ltb key (elems r)); rewrite <- app_assoc; reflexivity. }
          destruct (ex' || negb rb')%bool.
          * intros E2. injection E2 as <- <- <-. auto.
          * destruct (rebalance st d (N h ck cv l r')) as [[t1 b1]|] eqn:E2; [|discriminate].
            intros E3. injection E3 as <- <- <-. rewrite (rebalance_elems _ _ _ E2). auto.
        + destruct (cut_same_strict ltb W (elems l) (ck, cv) (elems r) key Ho Hs) as (C1 & C2 & C3).
          unfold write. rewrite C1, C2, C3. destruct (hit (ck, cv)) as [k' v'] eqn:Eh.
          intros E1. injection E1 as <- <- <-. auto.
    Qed.

    Lemma get_write_any key v t : strictly_sorted ltb (elems t) ->
      exists t', get_write cmp key v t = Some t' /\
        elems t' = match sames ltb key (elems t) with
                   | [] => elems t
                   | (k0, _) :: _ => write ltb key (k0, v) (elems t)
                   end.
    Proof.
      induction t as [|h ck cv l IHl r IHr]; intros Hs.
      - exists E. auto.
      - cbn [elems] in Hs |- *. destruct (strict_mid ltb _ _ _ Hs) as (Sl & Sr & Ll & Lr).
        cbn [get_write]. side3 ck key.
        + destruct (cut_left ltb W (elems l) (ck, cv) (elems r) key Ho) as (C1 & C2 & C3).
          { intros y Hy. apply (lt_asym _ W). auto. }
          destruct (IHl Sl) as (l' & E1 & E3). rewrite E1.
          exists (N h ck cv l' r). cbn [elems]. rewrite E3, C2. split; auto.
          unfold write. rewrite C1, C3. destruct (sames ltb key (elems l)) as [|[k0 v0] ls]; auto.
          rewrite <- app_assoc. reflexivity.
        + destruct (cut_right ltb W (elems l) (ck, cv) (elems r) key Ho) as (C1 & C2 & C3).
          { intros y Hy. apply (lt_asym _ W). auto. }
          destruct (IHr Sr) as (r' & E1 & E3). rewrite E1.
          exists (N h ck cv l r'). cbn [elems]. rewrite E3, C2. split; auto.
          unfold write. rewrite C1, C3. destruct (sames ltb key (elems r)) as [|[k0 v0] ls]; auto.
          rewrite <- app_assoc. reflexivity.
        + destruct (cut_same_strict ltb W (elems l) (ck, cv) (elems r) key Ho Hs) as (C1 & C2 & C3).
          exists (N h ck v l r). cbn [elems]. unfold write. rewrite C1, C2, C3. auto.
    Qed.

    Lemma remove_any key t : forall side t' o rb, strictly_sorted ltb (elems t) ->
      remove cmp st d key t side = Some (t', o, rb) ->
      o = option_map snd (hd_error (sames ltb key (elems t))) /\ elems t' = erase ltb key (elems t).
    Proof.
      induction t as [|h ck cv l IHl r IHr]; intros side t' o rb Hs.
      - cbn [remove]. intros E1. injection E1 as <- <- <-. auto.
      - cbn [elems] in Hs |- *. destruct (strict_mid ltb _ _ _ Hs) as (Sl & Sr & Ll & Lr).
        cbn [remove]. side3 ck key.
        + destruct (remove cmp st d key l false) as [[[l' o'] rb']|] eqn:E1; [|discriminate].
          destruct (IHl _ _ _ _ Sl E1) as (X1 & X2).
          destruct (cut_left ltb W (elems l) (ck, cv) (elems r) key Ho) as (C1 & C2 & C3).
          { intros y Hy. apply (lt_asym _ W). auto. }
          unfold erase in *. rewrite C1, C2, C3, app_assoc, <- X2. destruct rb'.
          * destruct (rebalance st d (N h ck cv l' r)) as [[t1 b1]|] eqn:E2; [|discriminate].
            intros E3. injection E3 as <- <- <-. rewrite (rebalance_elems _ _ _ E2). auto.
          * intros E3. injection E3 as <- <- <-. auto.
        + destruct (remove cmp st d key r true) as [[[r' o'] rb']|] eqn:E1; [|discriminate].
          destruct (IHr _ _ _ _ Sr E1) as (X1 & X2).
          destruct (cut_right ltb W (elems l) (ck, cv) (elems r) key Ho) as (C1 & C2 & C3).
          { intros y Hy. apply (lt_asym _ W). auto. }
          unfold erase in *. rewrite C1, C2, C3, <- app_assoc. cbn [app]. rewrite <- X2. destruct rb'.
          * destruct (rebalance st d (N h ck cv l r')) as [[t1 b1]|] eqn:E2; [|discriminate].
            intros E3. injection E3 as <- <- <-. rewrite (rebalance_elems _ _ _ E2). auto.
          * intros E3. injection E3 as <- <- <-. auto.
        + destruct (cut_same_strict ltb W (elems l) (ck, cv) (elems r) key Ho Hs) as (C1 & C2 & C3).
          unfold erase. rewrite C1, C2, C3. cbn [hd_error option_map snd].
          destruct l as [|lh lk lv ll lr] eqn:El; [|destruct r as [|rh rk rv rl rr] eqn:Er].
          * intros E3. injection E3 as <- <- <-. auto.
          * intros E3. injection E3 as <- <- <-. rewrite app_nil_r. auto.
          * rewrite <- El, <- Er in *. destruct side; cbn [negb child with_child].
            -- destruct (neighboring st d false r) as [[[s' [rk' rv']] b']|] eqn:E1; [|discriminate].
               rewrite (neighboring_elems _ _ _ _ _ E1).
               destruct (rebalance st d (N h rk' rv' l s')) as [[t1 b1]|] eqn:E2; [|discriminate].
               intros E3. injection E3 as <- <- <-. rewrite (rebalance_elems _ _ _ E2). auto.
            -- destruct (neighboring st d true l) as [[[s' [lk' lv']] b']|] eqn:E1; [|discriminate].
               rewrite (neighboring_elems _ _ _ _ _ E1).
               destruct (rebalance st d (N h lk' lv' s' r)) as [[t1 b1]|] eqn:E2; [|discriminate].
               intros E3. injection E3 as <- <- <-. rewrite (rebalance_elems _ _ _ E2). cbn [elems].
               rewrite <- app_assoc. auto.
    Qed.

    Lemma traverse_ok go t : forall seen,
      fst (traverse go t seen) = visit go seen (elems t) /\
      (snd (traverse go t seen) = true -> forall rest, visit go seen (elems t ++ rest) = visit go (fst (traverse go t seen)) rest) /\
      (snd (traverse go t seen) = false -> forall rest, visit go seen (elems t ++ rest) = fst (traverse go t seen)).
    Proof.
      induction t as [|h k v l IHl r IHr]; intros seen; [cbn; repeat split; auto; discriminate|].
      cbn [traverse elems]. destruct (IHl seen) as (L1 & L2 & L3).
      destruct (traverse go l seen) as [s1 c1]; cbn [fst snd] in *.
      destruct c1; cbn [negb].
      - specialize (L2 eq_refl). clear L3. rewrite L2. cbn [visit].
        destruct (go (s1 ++ [(k, v)])) eqn:Eg; cbn [negb fst snd].
        + destruct (IHr (s1 ++ [(k, v)])) as (R1 & R2 & R3).
          destruct (traverse go r (s1 ++ [(k, v)])) as [s3 c3]; cbn [fst snd] in *.
          destruct c3; cbn [negb fst snd]; (repeat split; [assumption|try discriminate|try discriminate]);
            intros _ rest; rewrite <- app_assoc, L2; cbn [app visit]; rewrite Eg; auto.
        + repeat split; try discriminate. intros _ rest. rewrite <- app_assoc, L2. cbn [app visit]. rewrite Eg. reflexivity.
      - specialize (L3 eq_refl). cbn [fst snd]. repeat split; try discriminate.
        + symmetry. apply L3.
        + intros _ rest. rewrite <- app_assoc. apply L3.
    Qed.
    Lemma values_ok (s : avl K V) : size s = length (elems (root s)) -> values s = map snd (elems (root s)).
    Proof.
      intros Hs. unfold values. rewrite Hs. destruct (elems (root s)) eqn:Ee; [reflexivity|]. cbn [length].
      destruct (traverse_ok (fun _ => true) (root s) []) as (E1 & _). rewrite E1, Ee. exact (f_equal (map snd) (visit_all _ [])).
    Qed.
  End Ops.
End Any.
