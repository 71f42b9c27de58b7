(** * The methods islice and irange (proofs) *)
From Coq Require Import String.
From Verif Require Import IndexFacts SliceFacts CoreFacts Shape VtFacts ListSim Spec.
From Verif Require Import PyBase BaseFacts Model SourceSyntax SourceText SourceSem SourceRep SourceFacts SourceLoops SourceBuild SourceMoves SourceTree SourceMethods SourceChange SourceAdd SourcePos SourcePop SourceFill SourceBulk SourceGet SourceSlice SourceIter.
Local Open Scope string_scope.
Local Open Scope nat_scope.
Local Open Scope list_scope.
Local Unset Implicit Arguments.

Definition velt {V} (o : option V) : val V := match o with None => VNone | Some v => VElt v end.

Section Range.
  Context {V : Type} (lt eq : V -> V -> res bool).

  Lemma maybe_vopt (a : option Z) (s : st V) : maybe_int (vopt a) s = (Ok a, s).
  Proof. destruct a; reflexivity. Qed.

  Lemma src_islice n d L X I s (c c' : core V V) a b rv l : LShape c -> enough c n -> holds L X I s c ->
    islice a b rv c = (Ok l, c') ->
    wp (call lt eq klass n (S (S (S d))) "islice" [vopt a; vopt b; VBool rv]) s (yields L X I l c').
  Proof.
    intros Hc Hn H E. enter. pose proof (lshape_core _ Hc) as HC.
    destruct (holds_rep _ _ _ _ _ H) as (h & nx & ids & -> & R). pose proof R as (HX & HI & HL & Hm & Hd & Hf).
    pose proof (ids_length _ _ _ Hm) as Hidl.
    unfold islice in E. rewrite bind_get in E. run. rewrite nzz_nat, negb_involutive.
    destruct (Nat.eqb_spec (len c) 0) as [Hz|Hz].
    { run. injection E as <- <-. apply (yields_end L X I c h nx); try assumption; try lia; [intros x Hx; apply on_other; lia|apply on_same]. }
    run. eapply wp_eq; [apply maybe_vopt|]. run. eapply wp_eq; [apply maybe_vopt|]. run.
    destruct (Z.ltb_spec (Z.of_nat (len c)) 0) as [Hneg|_]; [lia|]. run. rewrite Nat2Z.id.
    destruct (slice_indices_None a b (len c)) as (start & stop & Es). rewrite Es. rewrite (bind_lift _ _ _ _ Es) in E.
    destruct (slice_indices_Ok _ _ _ _ _ Es) as (_ & Hpos & _). specialize (Hpos ltac:(lia)).
    run. cbn [bind_names bind_name]. upto_if. names. run.
    destruct (Z.leb_spec stop start) as [Hss|Hss].
    { run. injection E as <- <-. apply (yields_end L X I c h nx); try assumption; try lia; [intros x Hx; apply on_other; lia|apply on_same]. }
    destruct (pos_of_ok c start HC) as (p & i & c1 & E1 & Ht & Hloc). { unfold norm. destruct (Z.ltb_spec start 0); lia. }
    rewrite (bind_ok _ _ _ _ _ E1) in E. cbn [fst snd] in E.
    destruct (pos_enough n start c c1 (p, i) Hc Hn E1) as (Hc1 & Hn1 & _).
    run. eapply wp_mono; [apply (src_pos lt eq n d L X I _ c c1 start p i H E1 Hn HC)|].
    cbv beta. intros r s' (-> & H1). destruct (holds_rep _ _ _ _ _ H1) as (h1 & nx1 & ids1 & -> & R1). pose proof R1 as (_ & _ & HL1 & Hm1 & _).
    pose proof (ids_length _ _ _ Hm1) as Hidl1. pose proof (touch_lists _ _ Ht) as Htl. rewrite Htl in Hm1, Hidl1.
    run. cbn [bind_names bind_name]. upto_if. names. run.
    destruct (last_of c HC Hz) as (Hl1 & ll & Hgl & Hll & Hlen1).
    destruct (Z.eqb_spec stop (Z.of_nat (len c))) as [He|He].
    - unfold bind, ret, liftr in E. rewrite Hll in E. cbn [fst snd] in E. injection E as E <-.
      run. rewrite HL1, map_length. run. change (- (1))%Z with (-1)%Z. rewrite getz_map, getz_m1 by lia.
      pose proof (sub_at _ _ _ (length (lists c) - 1) Hm1) as Hsl. rewrite Hgl in Hsl. destruct Hsl as (idl & Hpl & Hidll).
      rewrite Hidl1, Hpl. run. rewrite Hidll, map_length.
      replace (Z.of_nat (length (lists c)) - 1)%Z with (Z.of_nat (length (lists c) - 1)) by lia.
      eapply wp_mono; [eapply (src_pairs lt eq n (S d) L X I _ c1 p i _ _ rv l H1); rewrite Htl; exact E|].
      intros r s' Hy. destruct r; run; exact Hy.
    - destruct (pos_of_ok c1 stop (lshape_core _ Hc1)) as (p2 & j2 & c2 & E2 & Ht2 & _).
      { pose proof (touch_len _ _ Ht). unfold norm. destruct (Z.ltb_spec stop 0); lia. }
      rewrite (bind_ok _ _ _ _ _ E2) in E. cbn [fst snd] in E. unfold liftr in E. injection E as E <-.
      run. eapply wp_mono; [apply (src_pos lt eq n d L X I _ c1 c2 stop p2 j2 H1 E2 Hn1 (lshape_core _ Hc1))|].
      cbv beta. intros r s' (-> & H2). destruct (holds_rep _ _ _ _ _ H2) as (h2 & nx2 & ids2 & -> & R2).
      run. cbn [bind_names bind_name]. run. names. run.
      eapply wp_mono; [eapply (src_pairs lt eq n (S d) L X I _ c2 p i p2 j2 rv l H2); rewrite (touch_lists _ _ Ht2), Htl; exact E|].
      intros r s' Hy. destruct r; run; exact Hy.
  Qed.
End Range.
