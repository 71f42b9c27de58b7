(** * Facts about kept iterators *)
From Coq Require Import Permutation.
From Verif Require Import PyBase Model Spec BaseFacts SpecFacts History Reach ListClass ClassSpec ClassFacts ModelSet SetSpec SetFacts SetProps ModelDict DictSpec ModelHeap HeapFacts HeapSim HeapSim2 HeapProps ListProps ModelKHeap KHeapFacts KHeapSim KHeapSim2 ModelIter IterFacts IterSpec IterProps ModelViewIter ViewIterSpec HeapClass ViewIterFacts ModelKeep KeepSpec.
Local Unset Implicit Arguments.

(** ** [next] raises nothing but IndexError, and nothing at all for [iter] and [reversed] *)
Lemma flat_raises {V} (h : heap V) rs : forall fuel o back cur e s', 2 * left_of rs o + match cur with Some _ => 2 | None => 1 end <= fuel ->
  flat_next h rs fuel o back cur = (Err e, s') -> e = IndexError.
Proof.
  induction fuel as [|fuel IH]; intros o back cur e s' Hf; [destruct cur; lia|]. cbn [flat_next]. destruct cur as [x|].
  - destruct (inner_next h x) as [[v x']|]; [discriminate|]. apply IH. lia.
  - destruct o as [i|[|k]|[|i l]|]; cbn [outer_next]; try discriminate.
    + destruct (nth_error rs i) as [r|] eqn:E; [|discriminate]. apply IH. cbn [left_of] in *.
      assert (i < length rs) by (apply nth_error_Some; congruence). lia.
    + destruct (nth_error rs k) as [r|] eqn:E; [|discriminate]. apply IH. cbn [left_of] in *.
      assert (k < length rs) by (apply nth_error_Some; congruence).
      destruct (Nat.leb_spec (S k) (length rs)); [|lia]. destruct (Nat.leb_spec k (length rs)); lia.
    + unfold getn. destruct (nth_error rs i) as [r|]; [|intros E; injection E as <- _; reflexivity]. apply IH. cbn [left_of length] in *. lia.
Qed.
Lemma next_raises {V} (h : heap V) rs it : forall e it', next h rs it = (Err e, it') -> e = IndexError.
Proof.
  induction it as [|s it IH]; intros e it'; cbn [next]; [discriminate|].
  destruct (seg_next h rs s) as [[[v|]|e0] s'] eqn:E; try discriminate; [apply IH|]. intros X. injection X as <- _.
  destruct s as [r [|i ix]|o back cur]; cbn [seg_next] in E; [discriminate| |].
  - unfold getn in E. destruct (nth_error (cell h r) i); cbn in E; [discriminate|]. injection E as <- _. reflexivity.
  - refine (flat_raises h rs _ o back cur e0 s' _ E). unfold flat_fuel, left_of.
    destruct o as [i|k|l|]; try destruct (Nat.leb_spec k (length rs)); destruct cur; lia.
Qed.

(** ** Making an iterator *)
Section KMake.
  Context {V : Type}.
  Variables lt eq : V -> V -> res bool.
  Variable kf : V -> res V.
  Variable dflt : nat.
  Notation ST := (heap V * khsl V)%type.

  Lemma irange_key_split mn mx a b r c :
    skl_irange_key lt mn mx a b r c = let (p, c') := irange_key_pos lt mn mx a b c in (let! p := p in from_pos (lists (kc c)) p r, c').
  Proof.
    unfold skl_irange_key, irange_key_pos, bind, get. cbv zeta. destruct (is_nil (maxes (kc c))); [reflexivity|]. unfold liftr, ret.
    destruct mn as [m|].
    - destruct ((if a then bisect_left lt else bisect_right lt) (maxes (kc c)) m) as [p|]; [|reflexivity].
      destruct (p =? length (maxes (kc c))); [reflexivity|]. destruct (getn (keys c) p) as [l|]; [|reflexivity].
      destruct ((if a then bisect_left lt else bisect_right lt) l m) as [q|]; [|reflexivity].
      destruct mx as [m'|].
      + destruct ((if b then bisect_right lt else bisect_left lt) (maxes (kc c)) m') as [p'|]; [|reflexivity].
        destruct (p' =? length (maxes (kc c))); [destruct (getn (keys c) (p' - 1)); reflexivity|]. destruct (getn (keys c) p') as [l'|]; [|reflexivity].
        destruct ((if b then bisect_right lt else bisect_left lt) l' m') as [q'|]; reflexivity.
      + destruct (getn (keys c) (length (maxes (kc c)) - 1)); reflexivity.
    - destruct mx as [m'|].
      + destruct ((if b then bisect_right lt else bisect_left lt) (maxes (kc c)) m') as [p'|]; [|reflexivity].
        destruct (p' =? length (maxes (kc c))); [destruct (getn (keys c) (p' - 1)); reflexivity|]. destruct (getn (keys c) p') as [l'|]; [|reflexivity].
        destruct ((if b then bisect_right lt else bisect_left lt) l' m') as [q'|]; reflexivity.
      + destruct (getn (keys c) (length (maxes (kc c)) - 1)); reflexivity.
  Qed.
  Lemma irange_key_pos_same mn mx a b (c : skl V V) : snd (irange_key_pos lt mn mx a b c) = c.
  Proof.
    unfold irange_key_pos, bind, get. cbv zeta. destruct (is_nil (maxes (kc c))); [reflexivity|]. unfold liftr, ret.
    destruct mn as [m|]; destruct mx as [m'|];
      repeat first [reflexivity | match goal with |- context [match ?x with _ => _ end] => lazymatch x with context [match _ with _ => _ end] => fail | _ => destruct x end end].
  Qed.
End KMake.

(** [il_make] follows [l_fwd] of the class of Model.v. *)
Record MakeOK {S1 S2 V K} (T1 : ilist S1 V K) (T2 : listcls S2 V K) (R : S1 -> S2 -> Prop) (fref : fwd V K -> list V -> out V * list V) : Prop := {
  m_sim : ClsSim T1 T2 R;
  m_iter : forall s, il_make T1 MIter s = (Ok keys_iter, s);
  m_reversed : forall s, il_make T1 MReversed s = (Ok (keys_reversed T1 s), s);
  m_fwd : forall f s t x, gives_iterator (MFwd f) -> R s t -> fst (l_fwd T2 f t) = RList x ->
    exists it s', il_make T1 (MFwd f) s = (Ok it, s') /\ R s' (snd (l_fwd T2 f t)) /\ still T1 s s' /\ itval (hl_heap T1 s') (hl_rows T1 s') it x;
  m_out : forall f l, gives_iterator (MFwd f) ->
    (exists x, fst (fref f l) = RList x) \/ exists e, fst (fref f l) = RExn e /\ forall s, il_make T1 (MFwd f) s = (Err e, s) }.

Lemma islice_out {V} a b (r : bool) (l : list V) : exists x, of_res (fun x => RList (if r then rev x else x)) (sp_slice (mkslice a b None) l) = RList x.
Proof. destruct (sp_slice_is (mkslice a b None) l) as (x & -> & _); [discriminate|]. cbn. eauto. Qed.

Section Plain.
  Context {V K : Type}.
  Variables lt eq : V -> V -> res bool.
  Variables ltb eqb : V -> V -> bool.
  Variable dflt : nat.
  Lemma plain_make : MakeOK (iplain (K:=K) lt eq dflt) (plain lt eq dflt) hrel (fwd_plain ltb eqb).
  Proof.
    constructor.
    - apply plain_sim.
    - reflexivity.
    - reflexivity.
    - intros f s t x Hf [HG <-] Hx.
      assert (HM : forall o, fwd_op f = KList o -> IterProps.makes o -> exists it s', it_make lt o s = (Ok it, s') /\ hrel s' (snd (sl_step lt eq dflt o (view s))) /\
        still (iplain (K:=K) lt eq dflt) s s' /\ itval (fst s') (rows (snd s')) it x).
      { intros o Eo Ho. cbn [il_cls iplain l_fwd plain hl_cls] in Hx. rewrite Eo in Hx. destruct (make_ok lt eq dflt o s x Ho Hx) as (it & s' & E & Eh & Er & Ev & Hit).
        exists it, s'. split; [exact E|]. split; [split; [|exact Ev]|].
        - destruct HG as [H1 H2]. split; [rewrite Er; exact H1|rewrite Er, Eh; exact H2].
        - split; [split|]; cbn [il_cls iplain hl_rows hl_heap hplain]; [exact Er|intros r _; rewrite Eh; reflexivity|rewrite Eh, Er; exact Hit]. }
      destruct f; try destruct Hf; cbn [il_make iplain p_make fwd_op l_fwd plain] in *; try discriminate Hx; apply HM; reflexivity || exact I.
    - intros f l Hf. destruct f; try destruct Hf; unfold fwd_plain; cbn [fwd_op sp_step fst].
      + left. eauto.
      + left. apply islice_out.
      + right. eauto.
  Qed.
End Plain.

Section Keyed.
  Context {V : Type}.
  Variables lt eq : V -> V -> res bool.
  Variable kf : V -> res V.
  Variables ltb eqb : V -> V -> bool.
  Variable key : V -> V.
  Variable dflt : nat.
  Notation T1 := (ikeyed lt eq kf dflt).
  Lemma k_range mn mx a b r h o x : fst (skl_irange_key lt mn mx a b r (kview (h, o))) = Ok x ->
    exists it, k_irange_key lt mn mx a b r (h, o) = (Ok it, (h, o)) /\ itval h (rows (kbase o)) it x.
  Proof.
    rewrite irange_key_split. unfold k_irange_key, bind, kreading, zoom.
    pose proof (irange_key_pos_same lt mn mx a b (kview (h, o))) as HS. destruct (irange_key_pos lt mn mx a b (kview (h, o))) as [p c']. cbn [fst snd] in *. subst c'.
    assert (Hp : kput (kview (h, o)) (h, o) = (h, o)) by (destruct o as [[r0 m0 i0 f0 l0 d0] q0]; reflexivity). rewrite Hp.
    destruct p as [[[[a1 b1] [c1 d1]]|]|e]; cbn [rbind from_pos]; [| |discriminate]; intros H.
    - apply (pairs_val h (rows (kbase o))) in H as (it & E & Hit). exists it. unfold onbase, zoom, it_islice_. cbn [fst snd]. rewrite E. split; [|exact Hit]. destruct o as [[r0 m0 i0 f0 l0 d0] q0]. reflexivity.
    - apply ok_inj in H as <-. exists []. split; [destruct o; reflexivity|]. exists []. split; [constructor|reflexivity].
  Qed.
  Lemma keyed_make : MakeOK T1 (keyed eq lt eq kf dflt) khrel (fwd_keyed key ltb eqb).
  Proof.
    constructor.
    - apply keyed_sim.
    - intros [h [b q]]. reflexivity.
    - intros [h [b q]]. reflexivity.
    - intros f s t x Hf [HG <-] Hx.
      assert (HR : forall mn mx a b r, fst (skl_irange_key lt mn mx a b r (kview s)) = Ok x -> exists it,
        k_irange_key lt mn mx a b r s = (Ok it, s) /\ khrel s (kview s) /\ still T1 s s /\ itval (hl_heap T1 s) (hl_rows T1 s) it x).
      { intros mn mx a b r H. destruct s as [h o]. destruct (k_range mn mx a b r h o x H) as (it & E & Hit). exists it.
        split; [exact E|]. split; [split; [exact HG|reflexivity]|]. split; [apply still_refl|exact Hit]. }
      assert (HS : forall mn mx a b r, snd (skl_irange_key lt mn mx a b r (kview s)) = kview s).
      { intros. rewrite irange_key_split. pose proof (irange_key_pos_same lt mn mx a b (kview s)) as HS. destruct (irange_key_pos lt mn mx a b (kview s)). exact HS. }
      destruct f; try destruct Hf; cbn [il_make ikeyed k_make fwd_op l_fwd keyed skl_step skl_lstep] in *; unfold observe in *.
      + unfold skl_irange, bind, liftr in *. destruct (key_opt kf mn) as [a1|]; [|discriminate]. destruct (key_opt kf mx) as [a2|]; [|discriminate].
        pose proof (HS a1 a2 imin imax reverse) as H2. destruct (skl_irange_key lt a1 a2 imin imax reverse (kview s)) as [[y|] c] eqn:E; [|discriminate].
        cbn [fst snd] in *. injection Hx as ->. subst c. destruct (HR a1 a2 imin imax reverse ltac:(rewrite E; reflexivity)) as (it & E2 & H3). exists it, s. rewrite E2. auto.
      + destruct s as [h o]. unfold oncore, zoom in *. change (vt_get (skl_vt lt kf) (kview (h, o))) with (view (h, kbase o)) in *.
        destruct (make_ok lt eq dflt (LISlice start stop reverse) (h, kbase o) x I) as (it & s' & E & Eh & Er & Ev & Hit).
        { cbn [sl_step]. unfold observe. destruct (islice start stop reverse (view (h, kbase o))) as [[y|] c]; cbn in *; assumption || discriminate. }
        cbn [it_make] in E. cbn [sl_step] in Ev. unfold observe in Ev. exists it, (h, mkkhsl (snd s') (krows o)). unfold onbase, zoom. cbn [fst snd] in *. rewrite E.
        split; [rewrite Eh; reflexivity|]. split; [split|].
        * destruct HG as [H1 H2]. unfold krefs in *. cbn [fst snd kbase krows] in *. split; [unfold kgood, krefs; cbn [fst snd kbase krows]; rewrite Er; exact H1|].
          unfold krefs. cbn [fst snd kbase krows]. rewrite Er. exact H2.
        * cbn [kview kc] in *. destruct s' as [h' o']. cbn [fst snd kbase krows kview] in *. subst h'. rewrite Ev.
          destruct (islice start stop reverse (view (h, kbase o))) as [[y|] c]; reflexivity.
        * split; [split; [exact Er|reflexivity]|]. cbn [il_cls ikeyed hl_heap hl_rows hkeyed fst snd kbase]. rewrite Er. exact Hit.
      + pose proof (HS mn mx imin imax reverse) as H2. destruct (skl_irange_key lt mn mx imin imax reverse (kview s)) as [[y|] c] eqn:E; [|discriminate].
        cbn [fst snd] in *. injection Hx as ->. subst c. destruct (HR mn mx imin imax reverse ltac:(rewrite E; reflexivity)) as (it & E2 & H3). exists it, s. rewrite E2. auto.
    - intros f l Hf. left. destruct f; try destruct Hf; unfold fwd_keyed; cbn [fwd_op sp_kstep sp_step fst]; [eauto|apply islice_out|eauto].
  Qed.
End Keyed.

Lemma keep_class_sim {S V K} (T1 : ilist S V K) ltb eqb fref dflt : keep_class T1 ltb eqb fref dflt ->
  heap_class T1 ltb eqb fref dflt /\ exists S2 (T2 : listcls S2 V K) R, list_class T2 ltb eqb fref dflt /\ MakeOK T1 T2 R fref.
Proof.
  intros []; (split; [constructor; assumption|]); eexists _, _, _; (split; [|first [apply plain_make|apply keyed_make]]).
  - constructor; assumption.
  - constructor; try assumption. eapply to_equiv; eassumption.
Qed.
