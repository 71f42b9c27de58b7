(** * The methods of the text, one at a time (proofs) *)
From Coq Require Import String.
From Verif Require Import IndexFacts SliceFacts CoreFacts Shape VtFacts ListSim.
From Verif Require Import PyBase BaseFacts Model SourceSyntax SourceText SourceSem SourceRep SourceFacts SourceLoops SourceBuild SourceMoves SourceTree.
Local Open Scope string_scope.
Local Open Scope nat_scope.
Local Open Scope list_scope.
Local Unset Implicit Arguments.

(** Rounds that are enough for the loops started on [c]. *)
Definition enough {V} (c : core V V) (n : nat) : Prop :=
  build_fuel c <= n /\ S (offset (snd (ensure_index c)) + length (lists c)) <= n /\ S (length (index (snd (ensure_index c)))) <= n.

Lemma enough_some {V} (c : core V V) : exists n0, forall n, n0 <= n -> enough c n.
Proof.
  exists (build_fuel c + S (offset (snd (ensure_index c)) + length (lists c)) + S (length (index (snd (ensure_index c))))).
  intros n H. unfold enough. lia.
Qed.
Lemma ensure_again {V} (c c' : core V V) : CoreOK c -> 2 <= length (lists c) -> ensure_index c = (Ok tt, c') ->
  ensure_index c' = (Ok tt, c').
Proof.
  intros H H2 E. destruct (ensure_index_ok c H H2) as (c1 & E1 & Ht & D & D1 & D2 & D3 & D4 & D5 & _).
  rewrite E in E1. injection E1 as <-. unfold ensure_index, bind, get. destruct (index c'); [cbn in D5; lia|reflexivity].
Qed.
Lemma enough_ensure {V} (c c' : core V V) n : CoreOK c -> 2 <= length (lists c) -> ensure_index c = (Ok tt, c') ->
  enough c n -> enough c' n.
Proof.
  intros H H2 E (A & B & C). pose proof (ensure_again c c' H H2 E) as E'.
  destruct (ensure_index_ok c H H2) as (c1 & E1 & Ht & _). rewrite E in E1. injection E1 as <-.
  unfold enough, build_fuel in *. rewrite E in B, C. rewrite E'. cbn [snd] in *. rewrite (touch_lists _ _ Ht). auto.
Qed.
Lemma shape_max {V} (c : core V V) : LShape c -> length (maxes c) = length (lists c).
Proof. intros (rows & [] & _). cbn [kc embed] in *. rewrite sh_lists, sh_maxes, !map_length. reflexivity. Qed.
Lemma getn_lt {A} (l : list A) i x : getn l i = Ok x -> i < length l.
Proof. unfold getn. destruct (nth_error l i) eqn:E; [|discriminate]. intros _. apply nth_error_Some. congruence. Qed.
Lemma getn_has {A} (l : list A) i : i < length l -> exists x, getn l i = Ok x.
Proof. unfold getn. intros H. destruct (nth_error l i) eqn:E; [eauto|]. apply nth_error_None in E. lia. Qed.
Lemma loc_has {V} (c : core V V) p i : CoreOK c -> p < length (lists c) ->
  exists j c', loc p i c = (Ok j, c') /\ touch c c' /\ (c' = c \/ (2 <= length (lists c) /\ ensure_index c = (Ok tt, c'))).
Proof.
  intros H Hp. destruct (getn_has _ _ Hp) as (l & Hl).
  assert (HB : Bnd (lists c) p 0 (length (concat (firstn p (lists c))))).
  { unfold getn in Hl. destruct (nth_error (lists c) p) as [x|] eqn:E; [|discriminate]. injection Hl as ->.
    destruct (nth_error_split _ _ E) as (A & B & EA & EL). exists A, l, B. rewrite EA. split; [reflexivity|].
    split; [exact EL|]. split; [lia|]. rewrite <- EL, firstn_app, firstn_all, Nat.sub_diag. cbn. rewrite app_nil_r. lia. }
  destruct (loc_ok c p 0 _ H HB) as (c' & E & Ht). unfold loc in *. destruct (Nat.eqb_spec p 0) as [->|Hn].
  { exists i, c. split; [reflexivity|]. split; [apply touch_refl, H|left; reflexivity]. }
  assert (H2 : 2 <= length (lists c)) by lia. destruct (ensure_index_ok c H H2) as (c1 & E1 & Ht1 & _).
  unfold bind, get, liftr, ret in *. rewrite E1 in *.
  destruct (loc_loop (S (p + offset c1)) (index c1) (p + offset c1) 0) as [t|]; [|discriminate].
  injection E as _ <-. exists (t + i), c1. auto.
Qed.

Section Methods.
  Context {V : Type} (lt eq : V -> V -> res bool).
  Notation sl_delete := (@sl_delete V).

  Lemma exec_ensure_still n d L X I s (c c' : core V V) en :
    holds L X I s c -> ensure_index c = (Ok tt, c') -> build_fuel c <= n ->
    find "_index" en = Some (VList I) -> find "self" en = Some VSelf ->
    wp (exec lt eq (call lt eq klass n (S d)) n
          (SIf (ENot (EName "_index")) (SExpr (ECall (EAttr (EName "self") "_build_index") [])) SPass) en) s
       (fun r s' => r = Ok (Go en) /\ holds L X I s' c' /\ still I s s').
  Proof.
    intros H E Hn F1 F2. unfold ensure_index, bind, get in E.
    destruct (holds_rep _ _ _ _ _ H) as (h & nx & ids & -> & R). pose proof R as (HX & HI & HL & Hm & Hd & Hf).
    run. rewrite F1. run. rewrite HI, is_nil_map, negb_involutive. destruct (is_nil (index c)); run.
    - rewrite F2. run.
      match goal with |- wp ?m _ _ => change m with (call lt eq klass n (S d) "_build_index" []) end.
      eapply wp_mono; [eapply src_build_still; eassumption|].
      cbv beta. intros r s' (-> & H' & Hst). run. split; [reflexivity|]. split; [exact H'|exact Hst].
    - injection E as <-. split; [reflexivity|]. split; [exact H|apply still_refl].
  Qed.
  Lemma exec_ensure n d L X I s (c c' : core V V) en :
    holds L X I s c -> ensure_index c = (Ok tt, c') -> build_fuel c <= n ->
    find "_index" en = Some (VList I) -> find "self" en = Some VSelf ->
    wp (exec lt eq (call lt eq klass n (S d)) n
          (SIf (ENot (EName "_index")) (SExpr (ECall (EAttr (EName "self") "_build_index") [])) SPass) en) s
       (fun r s' => r = Ok (Go en) /\ holds L X I s' c').
  Proof.
    intros H E Hn F1 F2. eapply wp_mono; [exact (exec_ensure_still n d L X I s c c' en H E Hn F1 F2)|]. cbv beta. tauto.
  Qed.

  Lemma src_loc n d L X I s (c c' : core V V) p i j :
    holds L X I s c -> loc p i c = (Ok j, c') -> enough c n -> p < length (lists c) ->
    wp (call lt eq klass n (S (S d)) "_loc" [vnat p; vnat i]) s (fun r s' => r = Ok (vnat j) /\ holds L X I s' c').
  Proof.
    intros H E (Hn1 & Hn2 & _) Hp. enter. unfold loc, bind, get, liftr in E.
    destruct (holds_rep _ _ _ _ _ H) as (h & nx & ids & -> & R). pose proof R as (HX & HI & HL & Hm & Hd & Hf).
    run. rewrite nzz_nat, negb_involutive. destruct (Nat.eqb_spec p 0) as [->|Hp0].
    { run. injection E as <- <-. split; [reflexivity|exact H]. }
    cbv beta iota. destruct (ensure_index c) as [[[]|e] c1] eqn:E1; [|discriminate].
    destruct (loc_loop (S (p + offset c1)) (index c1) (p + offset c1) 0) as [t|] eqn:E2; [|discriminate].
    injection E as <- <-.
    repeat lazymatch goal with |- wp (exec _ _ _ _ (SIf (ENot (EName "_index")) _ _) _) _ _ => fail | _ => ev end.
    eapply wp_mono; [eapply exec_ensure; try eassumption; reflexivity|]. cbv beta. intros r s' (-> & H').
    destruct (holds_rep _ _ _ _ _ H') as (h' & nx' & ids' & -> & R'). pose proof R' as (HX' & HI' & HL' & Hm' & Hd' & Hf').
    run. rewrite <- Nat2Z.inj_add.
    match goal with |- wp (exec ?a ?b ?iv ?n (SWhile ?cn ?bd) ?en) ?s ?Q =>
      change (wp (while_loop n (eval a b iv cn) (exec a b iv n bd) en) s Q) end.
    eapply wp_mono; [apply (walk_loc lt eq (call lt eq klass n (S d)) n (vnat i) I _ n (p + offset c1) 0 (index c1) t _ E2); [|exact HI']|].
    { cbn [snd] in Hn2. lia. }
    cbv beta. intros r s' (-> & ->). run. rewrite <- Nat2Z.inj_add. split; [reflexivity|exact H'].
  Qed.

  Lemma src_len n d L X I s (c : core V V) : holds L X I s c ->
    wp (call lt eq klass n (S d) "__len__" []) s (fun r s' => r = Ok (vnat (len c)) /\ s' = s).
  Proof.
    intros H. enter. destruct (holds_rep _ _ _ _ _ H) as (h & nx & ids & -> & R).
    run. split; reflexivity.
  Qed.

  Lemma src_contains n d v L X I s (c : core V V) : holds L X I s c ->
    wp (call lt eq klass n (S d) "__contains__" [VElt v]) s
       (fun r s' => s' = s /\ r = rmap VBool (fst (sl_contains lt eq v c))).
  Proof.
    intros H. enter. destruct (holds_rep _ _ _ _ _ H) as (h & nx & ids & -> & R). pose proof R as (HX & HI & HL & Hm & Hd & Hf).
    unfold sl_contains, bind, get, liftr.
    run. rewrite HX, is_nil_map, negb_involutive.
    destruct (is_nil (maxes c)); run. { split; reflexivity. }
    rewrite HX, elts_map. run.
    destruct (bisect_left lt (maxes c) v) as [p|e]; run; [|split; reflexivity].
    rewrite HX, map_length, eqz_nat. destruct (p =? length (maxes c)); run. { split; reflexivity. }
    rewrite HL, getz_map, getz_nat.
    pose proof (sub_at _ _ _ p Hm) as Hs. destruct (getn (lists c) p) as [l|e].
    2:{ rewrite Hs. run. split; reflexivity. }
    destruct Hs as (id & Hp & Hid). rewrite Hp. run. rewrite Hid, elts_map. run.
    destruct (bisect_left lt l v) as [i|e]; run; [|split; reflexivity].
    rewrite HL, getz_map, getz_nat, Hp. run. rewrite Hid, getz_map, getz_nat.
    destruct (getn l i) as [x|e]; run; [|split; reflexivity].
    destruct (eq x v) as [b|e]; run; split; reflexivity.
  Qed.

  Lemma src_bisect_left n d v L X I s (c c' : core V V) j : LShape c -> enough c n ->
    holds L X I s c -> sl_bisect_left lt v c = (Ok j, c') ->
    wp (call lt eq klass n (S (S (S d))) "bisect_left" [VElt v]) s (fun r s' => r = Ok (vnat j) /\ holds L X I s' c').
  Proof.
    intros Hc Hn H E. enter. destruct (holds_rep _ _ _ _ _ H) as (h & nx & ids & -> & R). pose proof R as (HX & HI & HL & Hm & Hd & Hf).
    unfold sl_bisect_left, bind, get, liftr, ret in E.
    run. rewrite HX, is_nil_map, negb_involutive.
    destruct (is_nil (maxes c)); run. { injection E as <- <-. split; [reflexivity|exact H]. }
    rewrite HX, elts_map. run.
    destruct (bisect_left lt (maxes c) v) as [p|e]; [|discriminate]. run.
    rewrite HX, map_length, eqz_nat. destruct (p =? length (maxes c)); run. { injection E as <- <-. split; [reflexivity|exact H]. }
    rewrite HL, getz_map, getz_nat.
    pose proof (sub_at _ _ _ p Hm) as Hs. destruct (getn (lists c) p) as [l|e] eqn:El; [|discriminate].
    destruct Hs as (id & Hp & Hid). rewrite Hp. run. rewrite Hid, elts_map. run.
    destruct (bisect_left lt l v) as [i|e]; [|discriminate]. run.
    eapply wp_mono; [apply (src_loc n d L X I _ c c' p i j H E Hn (getn_lt _ _ _ El))|].
    cbv beta. intros r s' (-> & H'). run. split; [reflexivity|exact H'].
  Qed.
  Lemma src_bisect_right n d v L X I s (c c' : core V V) j name : LShape c -> enough c n ->
    In name ["bisect_right"; "bisect"; "_bisect_right"] ->
    holds L X I s c -> sl_bisect_right lt v c = (Ok j, c') ->
    wp (call lt eq klass n (S (S (S d))) name [VElt v]) s (fun r s' => r = Ok (vnat j) /\ holds L X I s' c').
  Proof.
    intros Hc Hn Hname H E. destruct Hname as [<-|[<-|[<-|[]]]]; enter.
    all: destruct (holds_rep _ _ _ _ _ H) as (h & nx & ids & -> & R); pose proof R as (HX & HI & HL & Hm & Hd & Hf).
    all: unfold sl_bisect_right, bind, get, liftr, ret in E.
    all: run; rewrite HX, is_nil_map, negb_involutive.
    all: destruct (is_nil (maxes c)); run; [injection E as <- <-; split; [reflexivity|exact H]|].
    all: rewrite HX, elts_map; run.
    all: destruct (bisect_right lt (maxes c) v) as [p|e]; [|discriminate]; run.
    all: rewrite HX, map_length, eqz_nat; destruct (p =? length (maxes c)); run; [injection E as <- <-; split; [reflexivity|exact H]|].
    all: rewrite HL, getz_map, getz_nat.
    all: pose proof (sub_at _ _ _ p Hm) as Hs; destruct (getn (lists c) p) as [l|e] eqn:El; [|discriminate].
    all: destruct Hs as (id & Hp & Hid); rewrite Hp; run; rewrite Hid, elts_map; run.
    all: destruct (bisect_right lt l v) as [i|e]; [|discriminate]; run.
    all: (eapply wp_mono; [apply (src_loc n d L X I _ c c' p i j H E Hn (getn_lt _ _ _ El))|]).
    all: cbv beta; intros r s' (-> & H'); run; split; [reflexivity|exact H'].
  Qed.

  Lemma loc_enough n p i (c c' : core V V) j : LShape c -> enough c n -> p < length (lists c) -> loc p i c = (Ok j, c') ->
    LShape c' /\ enough c' n /\ touch c c'.
  Proof.
    intros Hc Hn Hp E. destruct (loc_has c p i (lshape_core _ Hc) Hp) as (j' & c1 & E' & Ht & Ho). rewrite E in E'. injection E' as <- <-.
    split; [exact (lshape_touch _ _ Hc Ht)|]. split; [|exact Ht].
    destruct Ho as [->|(H2 & He)]; [exact Hn|]. exact (enough_ensure c c' n (lshape_core _ Hc) H2 He Hn).
  Qed.

  Lemma src_count n d v L X I s (c c' : core V V) j : LShape c -> enough c n ->
    holds L X I s c -> sl_count lt v c = (Ok j, c') ->
    wp (call lt eq klass n (S (S (S d))) "count" [VElt v]) s (fun r s' => r = Ok (vnat j) /\ holds L X I s' c').
  Proof.
    intros Hc Hn H E. enter. destruct (holds_rep _ _ _ _ _ H) as (h & nx & ids & -> & R). pose proof R as (HX & HI & HL & Hm & Hd & Hf).
    unfold sl_count, bind, get, liftr, ret in E.
    run. rewrite HX, is_nil_map, negb_involutive.
    destruct (is_nil (maxes c)); run. { injection E as <- <-. split; [reflexivity|exact H]. }
    rewrite HX, elts_map. run.
    destruct (bisect_left lt (maxes c) v) as [p|e]; [|discriminate]. run.
    rewrite HX, map_length, eqz_nat. destruct (p =? length (maxes c)); run. { injection E as <- <-. split; [reflexivity|exact H]. }
    rewrite HL, getz_map, getz_nat.
    pose proof (sub_at _ _ _ p Hm) as Hs. destruct (getn (lists c) p) as [l|e] eqn:El; [|discriminate].
    destruct Hs as (id & Hp & Hid). rewrite Hp. run. rewrite Hid, elts_map. run.
    destruct (bisect_left lt l v) as [i|e]; [|discriminate]. run.
    rewrite HX, elts_map. run.
    destruct (bisect_right lt (maxes c) v) as [q|e]; [|discriminate]. run.
    rewrite HX, map_length, eqz_nat. destruct (q =? length (maxes c)); run.
    - destruct (loc p i c) as [[a|] c1] eqn:E1; [|discriminate].
      eapply wp_mono; [apply (src_loc n d L X I _ c c1 p i a H E1 Hn (getn_lt _ _ _ El))|].
      cbv beta. intros r s' (-> & H'). run. unfold subc in E. destruct (Nat.leb_spec a (len c)); [|discriminate].
      injection E as <- <-. rewrite <- Nat2Z.inj_sub by assumption. split; [reflexivity|exact H'].
    - rewrite HL, getz_map, getz_nat.
      pose proof (sub_at _ _ _ q Hm) as Hs. destruct (getn (lists c) q) as [l2|e] eqn:El2; [|discriminate].
      destruct Hs as (id2 & Hp2 & Hid2). rewrite Hp2. run. rewrite Hid2, elts_map. run.
      destruct (bisect_right lt l2 v) as [k|e]; [|discriminate]. run. rewrite eqz_nat. destruct (p =? q); run.
      + unfold subc in E. destruct (Nat.leb_spec i k); [|discriminate].
        injection E as <- <-. rewrite <- Nat2Z.inj_sub by assumption. split; [reflexivity|exact H].
      + destruct (loc q k c) as [[a|] c1] eqn:E1; [|discriminate].
        pose proof (loc_enough n q k c c1 a Hc Hn (getn_lt _ _ _ El2) E1) as (Hc1 & Hn1 & Ht).
        destruct (loc p i c1) as [[b|] c2] eqn:E2; [|discriminate].
        eapply wp_mono; [apply (src_loc n d L X I _ c c1 q k a H E1 Hn (getn_lt _ _ _ El2))|].
        cbv beta. intros r s' (-> & H').
        destruct (holds_rep _ _ _ _ _ H') as (h' & nx' & ids' & -> & R'). run.
        eapply wp_mono; [apply (src_loc n d L X I _ c1 c2 p i b H' E2 Hn1)|].
        { rewrite (touch_lists _ _ Ht). exact (getn_lt _ _ _ El). }
        cbv beta. intros r s' (-> & H''). run.
        unfold subc in E. destruct (Nat.leb_spec b a); [|discriminate].
        injection E as <- <-. rewrite <- Nat2Z.inj_sub by assumption. split; [reflexivity|exact H''].
  Qed.
End Methods.
