(** * The method irange (proofs) *)
From Coq Require Import String.
From Verif Require Import IndexFacts SliceFacts CoreFacts Shape VtFacts ListSim Spec.
From Verif Require Import PyBase BaseFacts Model SourceSyntax SourceText SourceSem SourceRep SourceFacts SourceLoops SourceBuild SourceMoves SourceTree SourceMethods SourceChange SourceAdd SourcePos SourcePop SourceFill SourceBulk SourceGet SourceSlice SourceIter SourceRange.
Local Open Scope string_scope.
Local Open Scope nat_scope.
Local Open Scope list_scope.
Local Unset Implicit Arguments.

Section Irange.
  Context {V : Type} (lt eq : V -> V -> res bool).

  Ltac half := match goal with E : _ = (Ok ?l, ?c') |- yields ?L ?X ?I _ _ _ (mkst _ _ (slots (len ?c) _ _ _ _ _)) =>
    injection E as <- <-; match goal with H : holds L X I (mkst ?h ?nx _) c |- _ =>
      apply (yields_end L X I c h nx); try assumption; try lia; [intros x Hx; apply on_other; lia|apply on_same] end end.

  Ltac pick := match goal with |- match getz [?a; ?b] 0 with _ => _ end => change (getz [a; b] 0) with (Ok a)
                             | |- match getz [?a; ?b] 1 with _ => _ end => change (getz [a; b] 1) with (Ok b) end.
  Ltac last HE := run; eapply wp_mono; [eapply HE; [eassumption|reflexivity]|]; intros r s' Hy; destruct r; run; exact Hy.
  Lemma src_irange n d L X I s (c c' : core V V) mn mx (imin imax rv : bool) l : LShape c -> holds L X I s c ->
    sl_irange lt mn mx imin imax rv c = (Ok l, c') ->
    wp (call lt eq klass n (S (S d)) "irange" [velt mn; velt mx; VTup [VBool imin; VBool imax]; VBool rv]) s (yields L X I l c').
  Proof.
    intros Hc H E. enter. pose proof (lshape_core _ Hc) as HC.
    destruct (holds_rep _ _ _ _ _ H) as (h & nx & ids & -> & R). pose proof R as (HX & HI & HL & Hm & Hd & Hf).
    pose proof (ids_length _ _ _ Hm) as Hidl.
    unfold sl_irange, bind, get, liftr, ret in E.
    run. rewrite HX, is_nil_map, negb_involutive. destruct (is_nil (maxes c)) eqn:Hnil.
    { run. injection E as <- <-. apply (yields_end L X I c h nx); try assumption; try lia; [intros x Hx; apply on_other; lia|apply on_same]. }
    assert (HE : forall p i p2 j2, islice_pairs (lists c) p i p2 j2 rv = Ok l -> c = c' -> 
      wp (call lt eq klass n (S d) "_islice" [vnat p; vnat i; vnat p2; vnat j2; VBool rv]) (mkst h nx (slots (len c) (load c) L X I (offset c))) (fun r s' => yields L X I l c' r s')).
    { intros p i p2 j2 E1 <-. exact (src_pairs lt eq n d L X I _ c p i p2 j2 rv l H E1). }
    assert (Hml := shape_max _ Hc).
    assert (Hmp : 1 <= length (maxes c)) by (destruct (maxes c); [discriminate|cbn; lia]).
    destruct mn as [m|]; [destruct imin; change (velt (Some m)) with (VElt m)|change (velt (@None V)) with (@VNone V)].
    { run. pick. run. rewrite HX, elts_map. run. destruct (bisect_left lt (maxes c) m) as [p|]; [|discriminate]. run.
      rewrite HX, map_length, eqz_nat. destruct (p =? length (maxes c)) eqn:Hp; run. { half. }
      rewrite HL. destruct (getn (lists c) p) as [l1|] eqn:El; [|discriminate].
      destruct (row_at ids h _ _ _ Hm El) as (id & Hid & Hh & _). rewrite Hid. run. rewrite Hh, elts_map. run.
      destruct (bisect_left lt l1 m) as [i|]; [|discriminate].
      destruct mx as [mm|]; [destruct imax; change (velt (Some mm)) with (VElt mm)|change (velt (@None V)) with (@VNone V)].
      { run. pick. run. rewrite HX, elts_map. run. destruct (bisect_right lt (maxes c) mm) as [p2|]; [|discriminate]. run.
        rewrite HX, map_length, eqz_nat. destruct (Nat.eqb_spec p2 (length (maxes c))) as [Hp2|Hp2]; run.
        - replace (Z.of_nat p2 - 1)%Z with (Z.of_nat (p2 - 1)) by lia. rewrite HL.
          destruct (getn (lists c) (p2 - 1)) as [l2|] eqn:El2; [|discriminate].
          destruct (row_at ids h _ _ _ Hm El2) as (id2 & Hid2 & Hh2 & _). rewrite Hid2. run. rewrite Hh2, map_length.
          injection E as E <-. last HE.
        - rewrite HL. destruct (getn (lists c) p2) as [l2|] eqn:El2; [|discriminate].
          destruct (row_at ids h _ _ _ Hm El2) as (id2 & Hid2 & Hh2 & _). rewrite Hid2. run. rewrite Hh2, elts_map. run.
          destruct (bisect_right lt l2 mm) as [j2|]; [|discriminate]. injection E as E <-. last HE. }
      { run. pick. run. rewrite HX, elts_map. run. destruct (bisect_left lt (maxes c) mm) as [p2|]; [|discriminate]. run.
        rewrite HX, map_length, eqz_nat. destruct (Nat.eqb_spec p2 (length (maxes c))) as [Hp2|Hp2]; run.
        - replace (Z.of_nat p2 - 1)%Z with (Z.of_nat (p2 - 1)) by lia. rewrite HL.
          destruct (getn (lists c) (p2 - 1)) as [l2|] eqn:El2; [|discriminate].
          destruct (row_at ids h _ _ _ Hm El2) as (id2 & Hid2 & Hh2 & _). rewrite Hid2. run. rewrite Hh2, map_length.
          injection E as E <-. last HE.
        - rewrite HL. destruct (getn (lists c) p2) as [l2|] eqn:El2; [|discriminate].
          destruct (row_at ids h _ _ _ Hm El2) as (id2 & Hid2 & Hh2 & _). rewrite Hid2. run. rewrite Hh2, elts_map. run.
          destruct (bisect_left lt l2 mm) as [j2|]; [|discriminate]. injection E as E <-. last HE. }
      run. rewrite HX, map_length. run. replace (Z.of_nat (length (maxes c)) - 1)%Z with (Z.of_nat (length (maxes c) - 1)) by lia. rewrite HL.
      destruct (getn (lists c) (length (maxes c) - 1)) as [l2|] eqn:El2; [|discriminate].
      destruct (row_at ids h _ _ _ Hm El2) as (id2 & Hid2 & Hh2 & _). rewrite Hid2. run. rewrite Hh2, map_length.
      injection E as E <-. last HE.
    }
    { run. pick. run. rewrite HX, elts_map. run. destruct (bisect_right lt (maxes c) m) as [p|]; [|discriminate]. run.
      rewrite HX, map_length, eqz_nat. destruct (p =? length (maxes c)) eqn:Hp; run. { half. }
      rewrite HL. destruct (getn (lists c) p) as [l1|] eqn:El; [|discriminate].
      destruct (row_at ids h _ _ _ Hm El) as (id & Hid & Hh & _). rewrite Hid. run. rewrite Hh, elts_map. run.
      destruct (bisect_right lt l1 m) as [i|]; [|discriminate].
      destruct mx as [mm|]; [destruct imax; change (velt (Some mm)) with (VElt mm)|change (velt (@None V)) with (@VNone V)].
      { run. pick. run. rewrite HX, elts_map. run. destruct (bisect_right lt (maxes c) mm) as [p2|]; [|discriminate]. run.
        rewrite HX, map_length, eqz_nat. destruct (Nat.eqb_spec p2 (length (maxes c))) as [Hp2|Hp2]; run.
        - replace (Z.of_nat p2 - 1)%Z with (Z.of_nat (p2 - 1)) by lia. rewrite HL.
          destruct (getn (lists c) (p2 - 1)) as [l2|] eqn:El2; [|discriminate].
          destruct (row_at ids h _ _ _ Hm El2) as (id2 & Hid2 & Hh2 & _). rewrite Hid2. run. rewrite Hh2, map_length.
          injection E as E <-. last HE.
        - rewrite HL. destruct (getn (lists c) p2) as [l2|] eqn:El2; [|discriminate].
          destruct (row_at ids h _ _ _ Hm El2) as (id2 & Hid2 & Hh2 & _). rewrite Hid2. run. rewrite Hh2, elts_map. run.
          destruct (bisect_right lt l2 mm) as [j2|]; [|discriminate]. injection E as E <-. last HE. }
      { run. pick. run. rewrite HX, elts_map. run. destruct (bisect_left lt (maxes c) mm) as [p2|]; [|discriminate]. run.
        rewrite HX, map_length, eqz_nat. destruct (Nat.eqb_spec p2 (length (maxes c))) as [Hp2|Hp2]; run.
        - replace (Z.of_nat p2 - 1)%Z with (Z.of_nat (p2 - 1)) by lia. rewrite HL.
          destruct (getn (lists c) (p2 - 1)) as [l2|] eqn:El2; [|discriminate].
          destruct (row_at ids h _ _ _ Hm El2) as (id2 & Hid2 & Hh2 & _). rewrite Hid2. run. rewrite Hh2, map_length.
          injection E as E <-. last HE.
        - rewrite HL. destruct (getn (lists c) p2) as [l2|] eqn:El2; [|discriminate].
          destruct (row_at ids h _ _ _ Hm El2) as (id2 & Hid2 & Hh2 & _). rewrite Hid2. run. rewrite Hh2, elts_map. run.
          destruct (bisect_left lt l2 mm) as [j2|]; [|discriminate]. injection E as E <-. last HE. }
      run. rewrite HX, map_length. run. replace (Z.of_nat (length (maxes c)) - 1)%Z with (Z.of_nat (length (maxes c) - 1)) by lia. rewrite HL.
      destruct (getn (lists c) (length (maxes c) - 1)) as [l2|] eqn:El2; [|discriminate].
      destruct (row_at ids h _ _ _ Hm El2) as (id2 & Hid2 & Hh2 & _). rewrite Hid2. run. rewrite Hh2, map_length.
      injection E as E <-. last HE.
    }
      destruct mx as [mm|]; [destruct imax; change (velt (Some mm)) with (VElt mm)|change (velt (@None V)) with (@VNone V)].
      { run. pick. run. rewrite HX, elts_map. run. destruct (bisect_right lt (maxes c) mm) as [p2|]; [|discriminate]. run.
        rewrite HX, map_length, eqz_nat. destruct (Nat.eqb_spec p2 (length (maxes c))) as [Hp2|Hp2]; run.
        - replace (Z.of_nat p2 - 1)%Z with (Z.of_nat (p2 - 1)) by lia. rewrite HL.
          destruct (getn (lists c) (p2 - 1)) as [l2|] eqn:El2; [|discriminate].
          destruct (row_at ids h _ _ _ Hm El2) as (id2 & Hid2 & Hh2 & _). rewrite Hid2. run. rewrite Hh2, map_length.
          injection E as E <-. last (HE 0 0).
        - rewrite HL. destruct (getn (lists c) p2) as [l2|] eqn:El2; [|discriminate].
          destruct (row_at ids h _ _ _ Hm El2) as (id2 & Hid2 & Hh2 & _). rewrite Hid2. run. rewrite Hh2, elts_map. run.
          destruct (bisect_right lt l2 mm) as [j2|]; [|discriminate]. injection E as E <-. last (HE 0 0). }
      { run. pick. run. rewrite HX, elts_map. run. destruct (bisect_left lt (maxes c) mm) as [p2|]; [|discriminate]. run.
        rewrite HX, map_length, eqz_nat. destruct (Nat.eqb_spec p2 (length (maxes c))) as [Hp2|Hp2]; run.
        - replace (Z.of_nat p2 - 1)%Z with (Z.of_nat (p2 - 1)) by lia. rewrite HL.
          destruct (getn (lists c) (p2 - 1)) as [l2|] eqn:El2; [|discriminate].
          destruct (row_at ids h _ _ _ Hm El2) as (id2 & Hid2 & Hh2 & _). rewrite Hid2. run. rewrite Hh2, map_length.
          injection E as E <-. last (HE 0 0).
        - rewrite HL. destruct (getn (lists c) p2) as [l2|] eqn:El2; [|discriminate].
          destruct (row_at ids h _ _ _ Hm El2) as (id2 & Hid2 & Hh2 & _). rewrite Hid2. run. rewrite Hh2, elts_map. run.
          destruct (bisect_left lt l2 mm) as [j2|]; [|discriminate]. injection E as E <-. last (HE 0 0). }
      run. rewrite HX, map_length. run. replace (Z.of_nat (length (maxes c)) - 1)%Z with (Z.of_nat (length (maxes c) - 1)) by lia. rewrite HL.
      destruct (getn (lists c) (length (maxes c) - 1)) as [l2|] eqn:El2; [|discriminate].
      destruct (row_at ids h _ _ _ Hm El2) as (id2 & Hid2 & Hh2 & _). rewrite Hid2. run. rewrite Hh2, map_length.
      injection E as E <-. last (HE 0 0).
  Qed.
End Irange.
