(** * Comparisons that use the list they compare for: proofs *)
From Coq Require Import Permutation.
From Verif Require Import PyBase BaseFacts Model IndexFacts HeapFacts BalanceFacts ModelReentry ReentrySpec.
Local Unset Implicit Arguments.

Lemma rok_inj {A} (a b : A) : Ok a = Ok b -> a = b. Proof. intros H. now injection H. Qed.

(** ** The index can be patched *)
Definition patchable {V K} (c : core V K) : Prop :=
  index c = [] \/ (lists c <> [] /\ offset c + length (lists c) <= length (index c)).

Lemma updn_in {A} (l : list A) i f : i < length l -> (forall x, exists y, f x = Ok y) -> exists l', updn l i f = Ok l' /\ length l' = length l.
Proof.
  intros H F. revert i H. induction l as [|x t IH]; intros i H; cbn in H; [lia|]. destruct i as [|i]; cbn.
  - destruct (F x) as [y ->]. cbn. eexists. split; reflexivity.
  - destruct (IH i ltac:(lia)) as (l' & -> & E). cbn. eexists. split; [reflexivity|]. cbn. now rewrite E.
Qed.
Lemma walk_in f fuel : (forall x, exists y, f x = Ok y) -> forall child ix, child < fuel -> child < length ix ->
  exists ix', walk_up f fuel child ix = Ok ix' /\ length ix' = length ix.
Proof.
  intros F. induction fuel as [|n IH]; intros child ix Hf Hc; [lia|]. cbn [walk_up].
  destruct (Nat.eqb_spec child 0); [eauto|].
  destruct (updn_in ix child f Hc F) as (ix1 & -> & E). cbn [rbind].
  assert ((child - 1) / 2 < child) by (apply Nat.div_lt_upper_bound; lia).
  destruct (IH ((child - 1) / 2) ix1 ltac:(lia) ltac:(lia)) as (ix' & H1 & H2). exists ix'. split; [exact H1|lia].
Qed.
Lemma inc_patch {V K} (c : core V K) pos : patchable c -> pos < length (lists c) ->
  exists ix, index_inc c pos = Ok (set_index ix c) /\ patchable (set_index ix c).
Proof.
  intros P H. unfold index_inc. destruct (index c) as [|a t] eqn:E.
  - exists []. split; [destruct c; cbn in *; subst; reflexivity|left; reflexivity].
  - destruct P as [P|[P' P]]; [congruence|]. cbn [is_nil]. rewrite <- E in *. unfold index_walk.
    destruct (walk_in (fun n => Ok (n + 1)) (S (offset c + pos)) ltac:(eauto) (offset c + pos) (index c) ltac:(lia) ltac:(lia)) as (ix1 & -> & E1).
    cbn [rbind]. destruct (updn_in ix1 0 (fun n => Ok (n + 1)) ltac:(lia) ltac:(eauto)) as (ix2 & -> & E2). cbn [rbind].
    exists ix2. split; [reflexivity|]. right. split; [exact P'|cbn; lia].
Qed.

Section Reads.
  Context {V : Type}.
  (** Only the index changes, and it stays patchable. *)
  Definition calm {A} (m : M (core V V) A) : Prop :=
    forall c, patchable c -> patchable (snd (m c)) /\ lists (snd (m c)) = lists c /\ maxes (snd (m c)) = maxes c /\
      len (snd (m c)) = len c /\ load (snd (m c)) = load c.
  Lemma calm_bind {A B} (m : M (core V V) A) (k : A -> M (core V V) B) : calm m -> (forall a, calm (k a)) -> calm (bind m k).
  Proof.
    intros Hm Hk c P. unfold bind. destruct (Hm c P) as (P1 & A1 & A2 & A3 & A4). destruct (m c) as [[a|e] c1]; cbn [snd] in *; [|tauto].
    destruct (Hk a c1 P1) as (P2 & B1 & B2 & B3 & B4). split; [exact P2|]. repeat split; congruence.
  Qed.
  Lemma calm_id {A} (m : M (core V V) A) : (forall c, snd (m c) = c) -> calm m.
  Proof. intros H c P. rewrite H. auto. Qed.
  Lemma calm_build : calm ensure_index.
  Proof.
    intros c P. unfold ensure_index, bind, get. destruct (index c) as [|a t] eqn:E; cbn [is_nil]; [|auto].
    destruct (lists c) as [|l [|l' ls]] eqn:L.
    - unfold build_index, modifyR. rewrite L. cbn. auto.
    - unfold build_index, modifyR. rewrite L. cbn. rewrite L. split; [right; cbn; rewrite L; cbn; split; [discriminate|lia]|auto].
    - destruct (build_index_ok c ltac:(rewrite L; cbn; lia) E) as (ix & off & -> & D & H1 & H2 & H3 & H4 & H5 & H6). cbn [snd lists maxes len load set_offset set_index].
      split; [|rewrite L; auto]. right. cbn. split; [rewrite L; discriminate|]. rewrite map_length in *. lia.
  Qed.
  Ltac calmly :=
    cbv zeta;
    first [ assumption | apply calm_build
          | match goal with H : forall _, calm _ |- _ => apply H end
          | apply calm_bind; [calmly|intros; calmly]
          | match goal with |- calm (match ?x with _ => _ end) => destruct x; calmly end
          | apply calm_id; intros; reflexivity ].
  Lemma calm_pos i : calm (pos_of i).
  Proof. unfold pos_of, pos_nonneg, pos_tree. calmly. Qed.
  Lemma calm_item i : calm (getitem_int i).
  Proof. pose proof calm_pos. unfold getitem_int. calmly. Qed.
End Reads.

(** ** Sublists by number *)
Section Ids.
  Context {V : Type}.
  Implicit Types (is : list nat) (ls : list (list V)).
  Lemma find_in j is ls : length is = length ls -> In j is -> exists l, find_id j is ls = Some l.
  Proof.
    revert ls. induction is as [|i is IH]; intros [|l ls] H J; cbn in *; try discriminate; [contradiction|].
    destruct (Nat.eqb_spec i j); [eauto|]. destruct J as [J|J]; [congruence|]. apply IH; [lia|exact J].
  Qed.
  Lemma put_length j f is ls : length (put_id j f is ls) = length ls.
  Proof.
    revert ls. induction is as [|i is IH]; intros [|l ls]; cbn; auto. destruct (i =? j); cbn; auto.
  Qed.
  Lemma put_perm j idx v is ls : length is = length ls -> In j is ->
    Permutation (concat (put_id j (fun l => insn l idx v) is ls)) (v :: concat ls).
  Proof.
    revert ls. induction is as [|i is IH]; intros [|l ls] H J; cbn in *; try discriminate; [contradiction|].
    destruct (Nat.eqb_spec i j).
    - cbn. unfold insn. rewrite <- app_assoc. cbn. rewrite <- Permutation_middle. constructor. rewrite app_assoc. now rewrite firstn_skipn.
    - destruct J as [J|J]; [congruence|]. cbn. rewrite (IH ls ltac:(lia) J). symmetry. apply Permutation_middle.
  Qed.
  Lemma put_ne j idx v is ls : Forall (fun l => l <> []) ls -> Forall (fun l => l <> []) (put_id j (fun l => insn l idx v) is ls).
  Proof.
    intros H. revert is. induction H as [|l ls N H IH]; intros [|i is]; cbn; auto.
    destruct (i =? j); constructor; auto. unfold insn. intros Q. now apply app_eq_nil in Q as [_ Q].
  Qed.
End Ids.

(** ** The invariant: values [x] have been put in that [len] and [done] do not know of yet *)
Section Inv.
  Context {W V : Type}.
  Implicit Types o : robj V.
  Notation RS := (W * robj V)%type.
  Record InvW (x : list V) o : Prop := {
    i_ids : length (ids o) = length (lists (body o));
    i_maxes : length (maxes (body o)) = length (lists (body o));
    i_ne : Forall (fun l => l <> []) (lists (body o));
    i_perm : Permutation (concat (lists (body o))) (x ++ done o);
    i_len : len (body o) = length (done o);
    i_load : 1 <= load (body o);
    i_patch : patchable (body o) }.
  Notation Inv := (InvW []).

  (** Numbers are only added. *)
  Definition more (a b : list nat) : Prop := incl a b /\ length a <= length b.
  Lemma more_refl a : more a a. Proof. split; [apply incl_refl|lia]. Qed.
  Lemma more_trans a b c : more a b -> more b c -> more a c.
  Proof. intros [H1 L1] [H2 L2]. split; [eapply incl_tran; eassumption|lia]. Qed.

  Lemma getlast_ne {A} (l : list A) : l <> [] -> exists x, getlast l = Ok x.
  Proof. intros H. destruct (exists_last H) as (a & z & ->). exists z. apply getlast_snoc. Qed.

  Lemma expand_inv x o pos : InvW x o -> pos < length (lists (body o)) ->
    exists o', r_expand pos o = (Ok tt, o') /\ InvW x o' /\ more (ids o) (ids o') /\ done o' = done o.
  Proof.
    intros H P. destruct (split_at _ _ P) as (X & l & Y & E & <-).
    pose proof (i_ne _ _ H) as N. rewrite E in N. apply Forall_app in N as [N1 N2]. apply Forall_cons_iff in N2 as [N2 N3].
    unfold r_expand, sl_expand, modifyR. rewrite E, getn_app. cbn [rbind].
    destruct (Nat.ltb_spec (load (body o) * 2) (length l)) as [L|L].
    - rewrite setn_app. cbn [rbind]. pose proof (i_load _ _ H) as Hl.
      assert (K1 : firstn (load (body o)) l <> []) by (destruct l; [cbn in L; lia|destruct (load (body o)); [lia|discriminate]]).
      assert (K2 : skipn (load (body o)) l <> []).
      { intros Q. apply (f_equal (@length V)) in Q. rewrite skipn_length in Q. cbn in Q. lia. }
      destruct (getlast_ne _ K1) as [m ->]. destruct (getlast_ne _ K2) as [hm ->]. cbn [rbind].
      destruct (updn_in (maxes (body o)) (length X) (fun _ => Ok m)) as (ms & Hms & Lms); [rewrite (i_maxes _ _ H); exact P|eauto|].
      unfold setn. rewrite Hms. cbn [rbind lists set_lists set_maxes set_index].
      rewrite insn_len, !app_length. cbn [length].
      destruct (Nat.eqb_spec (S (length X + S (length Y))) (length X + S (length Y))) as [Q|_]; [lia|].
      eexists. split; [reflexivity|]. split; [|split; [|reflexivity]].
      + assert (I : insn (X ++ firstn (load (body o)) l :: Y) (length X + 1) (skipn (load (body o)) l) =
                    X ++ firstn (load (body o)) l :: skipn (load (body o)) l :: Y).
        { unfold insn. rewrite firstn_app, skipn_app. replace (length X + 1 - length X) with 1 by lia.
          rewrite (firstn_all2 X), (skipn_all2 X) by lia. cbn [firstn skipn app]. rewrite <- app_assoc. reflexivity. }
        split; cbn [ids body lists maxes len load done set_lists set_maxes set_index]; rewrite ?I.
        * rewrite insn_len, (i_ids _ _ H), E, !app_length. cbn [length]. lia.
        * rewrite insn_len, Lms, (i_maxes _ _ H), E, !app_length. cbn [length]. lia.
        * apply Forall_app. split; [exact N1|]. constructor; [exact K1|]. constructor; [exact K2|exact N3].
        * rewrite <- (i_perm _ _ H), E, !concat_app. cbn [concat]. rewrite (app_assoc (firstn _ _)), firstn_skipn. reflexivity.
        * apply (i_len _ _ H).
        * exact Hl.
        * left. reflexivity.
      + cbn [ids]. split; [|rewrite insn_len; lia]. unfold insn. intros j J. apply in_or_app. rewrite <- (firstn_skipn (length X + 1) (ids o)) in J.
        apply in_app_or in J as [J|J]; [left; exact J|right; right; exact J].
    - destruct (inc_patch (body o) (length X) (i_patch _ _ H) P) as (ix & -> & Q). cbn [lists set_index]. rewrite E, Nat.eqb_refl.
      eexists. split; [reflexivity|]. split; [|split; [apply more_refl|reflexivity]].
      destruct H as [h1 h2 h3 h4 h5 h6 h7]. split; cbn; assumption.
  Qed.

  Variable lt : V -> V -> code W V bool.
  Hypothesis LT : forall x y, adds_only (lt x y).
  Definition extra (v : V) : Prop := exists x y, may_add (lt x y) v.
  (** How the object gets on. *)
  Definition Ext o o' : Prop := more (ids o) (ids o') /\ exists l, done o' = l ++ done o /\ Forall extra l.
  Lemma ext_refl o : Ext o o.
  Proof. split; [apply more_refl|]. exists []. split; [reflexivity|constructor]. Qed.
  Lemma ext_trans o1 o2 o3 : Ext o1 o2 -> Ext o2 o3 -> Ext o1 o3.
  Proof.
    intros (A1 & l1 & B1 & C1) (A2 & l2 & B2 & C2). split; [eapply more_trans; eassumption|]. exists (l2 ++ l1).
    split; [rewrite B2, B1; apply app_assoc|]. apply Forall_app. split; assumption.
  Qed.

  Definition threw (e : exn) : Prop := e = IndexError \/ e = OutOfFuel \/ exists x y, may_throw (lt x y) e.
  (** What [add v] is shown to do at each depth. *)
  Definition add_ok (add : V -> M RS unit) : Prop := forall v s r s', Inv (snd s) -> add v s = (r, s') ->
    Inv (snd s') /\ more (ids (snd s)) (ids (snd s')) /\
    (exists l, done (snd s') = (match r with Ok _ => [v] | Err _ => [] end) ++ l ++ done (snd s) /\ Forall extra l) /\
    forall e, r = Err e -> threw e.
  (** A computation that leaves the object in order; [throw]: what it may raise. *)
  Definition fine {A} (throw : exn -> Prop) (m : M RS A) : Prop := forall s r s', Inv (snd s) -> m s = (r, s') ->
    Inv (snd s') /\ Ext (snd s) (snd s') /\ forall e, r = Err e -> throw e.

  Lemma run_fine {A} add (m : code W V A) : add_ok add -> adds_only m -> (forall v, may_add m v -> extra v) -> fine (may_throw m) (run add m).
  Proof.
    intros HA. induction m as [a|e|f k IH|v k IH|i k IH|i k IH|k IH|k IH]; intros O X s r s' I E; cbn [run adds_only may_throw may_add] in *.
    - injection E as <- <-. split; [exact I|]. split; [apply ext_refl|]. discriminate.
    - injection E as <- <-. split; [exact I|]. split; [apply ext_refl|]. intros e' Q. now injection Q.
    - destruct (IH (fst s) (O _) ltac:(eauto) (f (fst s), snd s) r s' I E) as (B1 & B2 & B3). split; [exact B1|]. split; [exact B2|]. eauto.
    - destruct (add v s) as [r1 s1] eqn:E1. destruct (HA _ _ _ _ I E1) as (A1 & A2 & (l & A3 & A4) & _).
      destruct (IH r1 (O _) ltac:(eauto) s1 r s' A1 E) as (B1 & B2 & B3). split; [exact B1|]. split; [|eauto].
      eapply ext_trans; [|exact B2]. split; [exact A2|]. eexists. split; [rewrite app_assoc in A3; exact A3|]. apply Forall_app. split; [|exact A4].
      destruct r1; constructor; [|constructor]. apply X. left. reflexivity.
    - contradiction.
    - unfold on_body, on_obj, zoom in E. pose proof (calm_item i (body (snd s)) (i_patch _ _ I)) as (C1 & C2 & C3 & C4 & C5).
      destruct (getitem_int i (body (snd s))) as [r1 c1]. cbn [snd] in *.
      assert (I1 : Inv (set_body c1 (snd s))).
      { destruct I as [h1 h2 h3 h4 h5 h6 h7]. split; cbn; rewrite ?C2, ?C3, ?C4, ?C5; try assumption; exact h4. }
      destruct (IH r1 (O _) ltac:(eauto) (fst s, set_body c1 (snd s)) r s' I1 E) as (B1 & B2 & B3).
      split; [exact B1|]. split; [exact B2|eauto].
    - destruct (IH _ (O _) ltac:(eauto) s r s' I E) as (B1 & B2 & B3). split; [exact B1|]. split; [exact B2|]. eauto.
    - destruct (IH _ (O _) ltac:(eauto) s r s' I E) as (B1 & B2 & B3). split; [exact B1|]. split; [exact B2|]. eauto.
  Qed.

  Lemma fine_bind {A B} (t : exn -> Prop) (m : M RS A) (k : A -> M RS B) : fine t m -> (forall a, fine t (k a)) -> fine t (bind m k).
  Proof.
    intros Hm Hk s r s' I E. unfold bind in E. destruct (m s) as [[a|e] s1] eqn:E1.
    - destruct (Hm _ _ _ I E1) as (A1 & A2 & _). destruct (Hk a _ _ _ A1 E) as (B1 & B2 & B3).
      split; [exact B1|]. split; [eapply ext_trans; eassumption|exact B3].
    - injection E as <- <-. destruct (Hm _ _ _ I E1) as (A1 & A2 & A3). split; [exact A1|]. split; [exact A2|]. intros e' Q. injection Q as <-. now apply A3.
  Qed.
  Lemma fine_same {A} (t : exn -> Prop) (m : M RS A) : (forall s, snd (m s) = s) -> (forall s e, fst (m s) = Err e -> t e) -> fine t m.
  Proof.
    intros H1 H2 s r s' I E. specialize (H1 s). specialize (H2 s). rewrite E in H1, H2. cbn in *. subst s'.
    split; [exact I|]. split; [apply ext_refl|]. exact H2.
  Qed.
  Lemma bisect_fine cmp read : (forall x y, fine threw (cmp x y)) -> forall fuel x lo hi, fine threw (r_bisect cmp read fuel x lo hi).
  Proof.
    intros C. induction fuel as [|n IH]; intros x lo hi; cbn [r_bisect].
    - apply fine_same; [reflexivity|]. intros s e Q. injection Q as <-. right. left. reflexivity.
    - destruct (lo <? hi); [|apply fine_same; [reflexivity|discriminate]]. cbv zeta.
      apply fine_bind; [apply fine_same; [reflexivity|discriminate]|]. intros s.
      apply fine_bind; [apply fine_same; [reflexivity|]|].
      { intros s1 e Q. unfold liftr, getn in Q. cbn in Q. destruct (nth_error _ _); [discriminate|]. injection Q as <-. left. reflexivity. }
      intros y. apply fine_bind; [apply C|]. intros b. destruct b; apply IH.
  Qed.
  Lemma bisect_right_fine cmp read x : (forall x y, fine threw (cmp x y)) -> fine threw (r_bisect_right cmp read x).
  Proof.
    intros C. unfold r_bisect_right. apply fine_bind; [apply fine_same; [reflexivity|discriminate]|]. intros s. apply bisect_fine. exact C.
  Qed.
  Lemma finish o v : InvW [v] o -> Inv (mkrobj (set_len (len (body o) + 1) (body o)) (ids o) (dead o) (fresh o) (v :: done o)).
  Proof.
    intros [h1 h2 h3 h4 h5 h6 h7]. split; cbn; try assumption. lia.
  Qed.

  Lemma add_fine depth : add_ok (r_add lt depth).
  Proof.
    induction depth as [depth IH] using lt_wf_ind. intros v s r s' I E.
    set (cmp := fun x y => match depth with O => raise OutOfFuel | S d => run (r_add lt d) (lt x y) end) in *.
    assert (C : forall x y, fine threw (cmp x y)).
    { intros x y. unfold cmp. destruct depth as [|d].
      - apply fine_same; [reflexivity|]. intros s0 e Q. injection Q as <-. right. left. reflexivity.
      - intros s0 r0 s0' I0 E0. destruct (run_fine (r_add lt d) (lt x y) (IH d ltac:(lia)) (LT x y) ltac:(intros w Hw; exists x, y; exact Hw) s0 r0 s0' I0 E0) as (A1 & A2 & A3).
        split; [exact A1|]. split; [exact A2|]. intros e Q. right. right. eauto. }
    assert (U : r_add lt depth v s = (s <- get ;;
    (if is_nil (maxes (body (snd s))) then
       on_obj (modify (fun o =>
         let c := body o in
         mkrobj (set_maxes (maxes c ++ [v]) (set_lists (lists c ++ [[v]]) c)) (ids o ++ [fresh o]) (dead o) (S (fresh o)) (done o)))
     else
       pos <- r_bisect_right cmp (fun o => maxes (body o)) v ;;
       s <- get ;;
       if pos =? length (maxes (body (snd s))) then
         let pos := pos - 1 in
         on_body (modifyR (fun c => let! ls := updn (lists c) pos (fun l => Ok (l ++ [v])) in Ok (set_lists ls c))) ;;;
         on_body (modifyR (fun c => let! ms := setn (maxes c) pos v in Ok (set_maxes ms c))) ;;;
         on_obj (r_expand pos)
       else
         j <- liftr (getn (ids (snd s)) pos) ;;
         idx <- r_bisect_right cmp (sub j) v ;;
         on_obj (modify (insert_sub j idx v)) ;;;
         on_obj (r_expand pos)) ;;;
    on_obj (modify (fun o => mkrobj (set_len (len (body o) + 1) (body o)) (ids o) (dead o) (fresh o) (v :: done o)))) s) by (destruct depth; reflexivity).
    rewrite U in E. clear U. unfold bind at 1, get at 1 in E.
    assert (Fin : forall (m : M RS unit), (forall r1 s1, m s = (r1, s1) ->
        (r1 = Ok tt /\ InvW [v] (snd s1) /\ Ext (snd s) (snd s1)) \/ (exists e, r1 = Err e /\ threw e /\ Inv (snd s1) /\ Ext (snd s) (snd s1))) ->
      (m ;;; on_obj (modify (fun o => mkrobj (set_len (len (body o) + 1) (body o)) (ids o) (dead o) (fresh o) (v :: done o)))) s = (r, s') ->
      Inv (snd s') /\ more (ids (snd s)) (ids (snd s')) /\
      (exists l, done (snd s') = (match r with Ok _ => [v] | Err _ => [] end) ++ l ++ done (snd s) /\ Forall extra l) /\
      forall e, r = Err e -> threw e).
    { intros m Hm Em. unfold bind in Em. destruct (m s) as [r1 s1] eqn:E1. destruct (Hm _ _ eq_refl) as [(-> & A1 & A2 & l & A3 & A4)|(e & -> & A1 & A2 & A3 & l & A4 & A5)].
      - cbn in Em. injection Em as <- <-. cbn [snd]. split; [apply finish; exact A1|]. split; [exact A2|]. split; [|discriminate].
        exists l. cbn. rewrite A3. auto.
      - injection Em as <- <-. split; [exact A2|]. split; [exact A3|]. split; [exists l; auto|]. intros e' Q. now injection Q as <-. }
    revert E. apply Fin. clear Fin. intros r1 s1 E.
    destruct (is_nil (maxes (body (snd s)))) eqn:Nil.
    - apply is_nil_spec in Nil. cbn in E. injection E as <- <-. left. split; [reflexivity|]. cbn [snd].
      assert (L0 : lists (body (snd s)) = []).
      { pose proof (i_maxes _ _ I) as Q. rewrite Nil in Q. cbn in Q. now destruct (lists (body (snd s))). }
      split.
      + destruct I as [h1 h2 h3 h4 h5 h6 h7]. split; cbn; rewrite ?Nil, ?L0 in *; cbn in *; rewrite ?app_length; cbn; try assumption; try lia.
        * repeat constructor. discriminate.
        * constructor. exact h4.
        * destruct h7 as [h7|[h7 _]]; [left; exact h7|contradiction].
      + split; [split; [intros j J; cbn; apply in_or_app; left; exact J|cbn; rewrite app_length; lia]|]. exists []. split; [reflexivity|constructor].
    - assert (C0 : fine threw (r_bisect_right cmp (fun o => maxes (body o)) v)) by (apply bisect_right_fine; exact C).
      unfold bind at 1 in E. destruct (r_bisect_right cmp (fun o => maxes (body o)) v s) as [[pos|e] s2] eqn:E2.
      2:{ injection E as <- <-. destruct (C0 _ _ _ I E2) as (A1 & A2 & A3). right. exists e. auto. }
      destruct (C0 _ _ _ I E2) as (I2 & X2 & _). clear C0.
      unfold bind at 1, get at 1 in E.
      destruct (Nat.eqb_spec pos (length (maxes (body (snd s2))))) as [P|P].
      + cbv zeta in E.
        destruct (Nat.eq_dec pos 0) as [Z|Z].
        { (* the list cannot have become empty, but nothing is lost if it had *)
          exfalso. destruct X2 as ((X2 & _) & _). rewrite Z in P. rewrite (i_maxes _ _ I2), <- (i_ids _ _ I2) in P.
          destruct (ids (snd s)) as [|j t] eqn:Ei.
          - pose proof (i_ids _ _ I) as Q. rewrite Ei in Q. pose proof (i_maxes _ _ I) as Q'. rewrite <- Q in Q'.
            destruct (maxes (body (snd s))); discriminate.
          - specialize (X2 j (or_introl eq_refl)). destruct (ids (snd s2)); [contradiction|discriminate]. }
        assert (Lp : pos - 1 < length (lists (body (snd s2)))) by (rewrite <- (i_maxes _ _ I2); lia).
        destruct (split_at _ _ Lp) as (X & l & Y & El & Hp).
        unfold bind at 1, on_body at 1, on_obj at 1, zoom at 1, zoom at 1, modifyR at 1 in E.
        rewrite El, <- Hp, updn_app in E. cbn [rbind] in E.
        unfold bind at 1, on_body at 1, on_obj at 1, zoom at 1, zoom at 1, modifyR at 1 in E. cbn [fst snd body set_body maxes set_lists] in E.
        destruct (updn_in (maxes (body (snd s2))) (length X) (fun _ => Ok v)) as (ms & Hms & Lms); [rewrite (i_maxes _ _ I2), Hp; exact Lp|eauto|].
        unfold setn in E. rewrite Hms in E. cbn [rbind] in E.
        unfold on_obj, zoom in E. cbn [snd fst] in E.
        match type of E with context [r_expand (length X) ?o] => set (o3 := o) in E end.
        assert (I3 : InvW [v] o3).
        { destruct I2 as [h1 h2 h3 h4 h5 h6 h7]. rewrite El in h1, h2, h3, h4. unfold o3.
          split; cbn [body ids done set_body lists maxes len load set_lists set_maxes].
          - rewrite h1, !app_length. reflexivity.
          - rewrite Lms, h2, !app_length. reflexivity.
          - apply Forall_app in h3 as [h3 h3']. apply Forall_cons_iff in h3' as [h3' h3'']. apply Forall_app. split; [exact h3|].
            constructor; [|exact h3'']. intros Q. now apply app_eq_nil in Q as [_ Q].
          - rewrite concat_app in *. cbn [concat] in *. cbn [app]. rewrite <- h4. rewrite <- app_assoc. cbn [app].
            rewrite app_assoc, <- Permutation_middle. now rewrite <- app_assoc.
          - exact h5.
          - exact h6.
          - destruct h7 as [h7|[h7 h8]]; [left; exact h7|right]. cbn. rewrite El in h8. rewrite app_length in *. cbn [length] in *.
            split; [destruct X; discriminate|exact h8]. }
        destruct (expand_inv [v] o3 (length X) I3) as (o4 & E4 & I4 & A4 & B4).
        { unfold o3. cbn. rewrite app_length. cbn. lia. }
        rewrite E4 in E. injection E as <- <-. left. split; [reflexivity|]. split; [exact I4|].
        eapply ext_trans; [exact X2|]. split; [exact A4|]. exists []. split; [exact B4|constructor].
      + unfold bind at 1, liftr at 1 in E. destruct (getn (ids (snd s2)) pos) as [j|e] eqn:Ej.
        2:{ injection E as <- <-. right. exists e. split; [reflexivity|]. split; [|split; [exact I2|exact X2]]. left.
            unfold getn in Ej. destruct (nth_error _ _); [discriminate|]. now injection Ej. }
        assert (Jin : In j (ids (snd s2))) by (unfold getn in Ej; destruct (nth_error _ _) as [j'|] eqn:En; [|discriminate]; injection Ej as ->; eapply nth_error_In; exact En).
        assert (Pl : pos < length (lists (body (snd s2)))).
        { unfold getn in Ej. destruct (nth_error _ _) as [j'|] eqn:En; [|discriminate]. rewrite <- (i_ids _ _ I2). apply nth_error_Some. congruence. }
        assert (C1 : fine threw (r_bisect_right cmp (sub j) v)) by (apply bisect_right_fine; exact C).
        unfold bind at 1 in E. destruct (r_bisect_right cmp (sub j) v s2) as [[idx|e] s3] eqn:E3.
        2:{ injection E as <- <-. destruct (C1 _ _ _ I2 E3) as (A1 & A2 & A3). right. exists e. split; [reflexivity|]. split; [auto|]. split; [exact A1|].
            eapply ext_trans; eassumption. }
        destruct (C1 _ _ _ I2 E3) as (I3 & X3 & _). clear C1.
        unfold bind at 1, on_obj at 1, zoom at 1, modify at 1 in E. unfold on_obj, zoom in E. cbn [snd fst] in E.
        assert (Jin3 : In j (ids (snd s3))) by (apply X3; exact Jin).
        set (o3 := insert_sub j idx v (snd s3)) in E.
        assert (I4 : InvW [v] o3).
        { destruct I3 as [h1 h2 h3 h4 h5 h6 h7]. unfold o3, insert_sub.
          split; cbn [body ids done lists maxes len load set_lists].
          - rewrite put_length. exact h1.
          - rewrite put_length. exact h2.
          - apply put_ne. exact h3.
          - rewrite put_perm by assumption. cbn [app]. constructor. exact h4.
          - exact h5.
          - exact h6.
          - destruct h7 as [h7|[h7 h8]]; [left; exact h7|right]. cbn. rewrite put_length. split; [|exact h8].
            intros Q. apply (f_equal (@length _)) in Q. rewrite put_length in Q. destruct (lists (body (snd s3))); [contradiction|discriminate]. }
        destruct (expand_inv [v] o3 pos I4) as (o4 & E4 & I5 & A4 & B4).
        { unfold o3. cbn. rewrite put_length. rewrite <- (i_ids _ _ I3). rewrite <- (i_ids _ _ I2) in Pl.
          eapply Nat.lt_le_trans; [exact Pl|]. apply X3. }
        rewrite E4 in E. injection E as <- <-. left. split; [reflexivity|]. split; [exact I5|].
        eapply ext_trans; [exact X2|]. eapply ext_trans; [exact X3|]. split; [exact A4|]. exists []. split; [exact B4|constructor].
  Qed.
End Inv.
