(** The recursion of optimizer_base.py through body graphs, for any optimizer of one level that preserves
    the meaning and the validity of the graph. *)
From Coq Require Import String List Bool Arith Lia.
From Verif Require Import FGraph FGraphProofs FGraphSpec IdentityModel IdentityProofs.
Import ListNotations.
Local Open Scope string_scope.
Local Open Scope list_scope.

Lemma mapo_forall {A B} (f : A -> option B) (R : A -> B -> Prop) l :
  (forall x, In x l -> exists y, f x = Some y /\ R x y) -> exists l', mapo f l = Some l' /\ Forall2 R l l'.
Proof.
  induction l as [|x l IH]; intro H; cbn [mapo].
  - exists []. auto.
  - destruct (H x (or_introl eq_refl)) as (y & E & Ry). destruct IH as (l' & E' & F); [intros; apply H; cbn; auto|].
    rewrite E, E'. exists (y :: l'). auto.
Qed.
Lemma mapo_id {A} (f : A -> option A) l : (forall x, In x l -> f x = Some x) -> mapo f l = Some l.
Proof. induction l as [|x l IH]; intro H; cbn [mapo]; auto. rewrite H by (cbn; auto). rewrite IH; auto. intros. apply H. cbn. auto. Qed.
Lemma NoDup_concat_sub {A B} (f : A -> list string) (f' : B -> list string) l l' :
  Forall2 (fun x x' => NoDup (f' x') /\ incl (f' x') (f x)) l l' -> NoDup (concat (map f l)) ->
  NoDup (concat (map f' l')) /\ incl (concat (map f' l')) (concat (map f l)).
Proof.
  induction 1 as [|x x' l l' [N I] F IH]; cbn; intro H; [split; [constructor|apply incl_refl]|].
  apply NoDup_app_inv in H. destruct H as (A1 & A2 & A3). destruct (IH A2) as [B1 B2]. split.
  - apply NoDup_app_intro; auto. intros t Ht K. apply (A3 t); auto.
  - apply incl_app; [apply incl_appl; auto|apply incl_appr; auto].
Qed.
Lemma Forall2_concat {A B} (R : A -> B -> Prop) l l' : Forall2 (Forall2 R) l l' -> Forall2 R (concat l) (concat l').
Proof. induction 1; cbn; auto using Forall2_app. Qed.
Lemma Forall2_in_l {A B} (R : A -> B -> Prop) l l' x : Forall2 R l l' -> In x l -> exists y, In y l' /\ R x y.
Proof. induction 1; cbn; [tauto|]. intros [->|H1]; eauto. destruct (IHForall2 H1) as (z & Hz & Rz). eauto. Qed.
Lemma Forall2_in_r {A B} (R : A -> B -> Prop) l l' y : Forall2 R l l' -> In y l' -> exists x, In x l /\ R x y.
Proof. induction 1; cbn; [tauto|]. intros [->|H1]; eauto. destruct (IHForall2 H1) as (z & Hz & Rz). eauto. Qed.
Lemma Forall2_map_eq {A B C} (f : A -> C) (f' : B -> C) l l' : Forall2 (fun x y => f' y = f x) l l' -> map f' l' = map f l.
Proof. induction 1; cbn; congruence. Qed.
Lemma Forall2_imp {A B} (R R' : A -> B -> Prop) l l' : (forall x y, In x l -> In y l' -> R x y -> R' x y) -> Forall2 R l l' -> Forall2 R' l l'.
Proof. intro H. induction 1; constructor; [apply H; cbn; auto|]. apply IHForall2. intros. apply H; cbn; auto. Qed.

(** names used somewhere inside are defined inside or free *)
Lemma within_fv g h n t : within g h -> In n (f_nodes h) -> In t (fv_node n) -> In t (alldefs g) \/ In t (fv_graph g).
Proof.
  induction 1 as [g|g m b h Hm Hb H IH]; intros Hn Ht.
  - destruct (used_defs_or_free g n t Hn Ht); auto. left. now apply defs_alldefs.
  - destruct (IH Hn Ht) as [K|K].
    + left. apply alldefs_in. right. exists m. split; auto. apply alldefs_in_node. right. eauto.
    + assert (Kn : In t (fv_node m)) by (rewrite fv_node_eq, in_app_iff, in_concat_map; right; eauto).
      destruct (used_defs_or_free g m t Hm Kn); auto. left. now apply defs_alldefs.
Qed.

(** same node up to the bodies *)
Definition shell (n n' : fnode) : Prop :=
  f_name n' = f_name n /\ f_op n' = f_op n /\ f_dom n' = f_dom n /\ f_attrs n' = f_attrs n /\
  f_in n' = f_in n /\ f_out n' = f_out n /\ length (f_bodies n') = length (f_bodies n).

Section Apply.
Variable V : Type.
Variable op_rel : string -> string -> list (string * attr) -> nat -> list V ->
                  list (list V -> list V -> Prop) -> list V -> Prop.
Hypothesis ext : op_ext op_rel.
Notation equiv := (equiv op_rel).
Variable level : fgraph -> option fgraph.
Variables (SN : fnode -> Prop) (Post : fgraph -> Prop).
Definition Wn (rk : string -> nat) (g : fgraph) : Prop :=
  (forall h, within g h -> good rk h) /\ (forall h n, within g h -> In n (f_nodes h) -> SN n).
Hypothesis SN_shell : forall n n', shell n n' -> SN n -> SN n'.
Hypothesis Post_shell : forall ns ns' gi go, Forall2 shell ns ns' -> Post (FGraph ns gi go) -> Post (FGraph ns' gi go).
Hypothesis level_ok : forall rk g, Wn rk g ->
  exists g' rk', level g = Some g' /\ Wn rk' g' /\ equiv g g' /\
    f_ins g' = f_ins g /\ f_outs g' = f_outs g /\ depth g' <= depth g /\ narrow rk g rk' g' /\ Post g'.

Definition Rb (rk : string -> nat) (b b' : fgraph) : Prop :=
  exists rkb, Wn rkb b' /\ equiv b b' /\ narrow rk b rkb b' /\ (forall h, within b' h -> Post h).

Lemma rerank rk RK b : Wn rk b -> (forall t, In t (alldefs b) \/ In t (fv_graph b) -> RK t = rk t) -> Wn RK b.
Proof.
  intros [A B] H. split; auto. intros h Hw. assert (G := A h Hw). destruct G as [G1 G2 G3 G4 G5 G6]. constructor; auto.
  intros n t o Hn Ht Ho No. rewrite !H; [apply (G5 n); auto| |].
  - left. eapply within_alldefs; eauto. apply alldefs_in. right. exists n. split; auto. apply alldefs_in_node. auto.
  - eapply within_fv; eauto.
Qed.

Lemma combine_ranks rk bs bs' : Forall2 (Rb rk) bs bs' -> NoDup (concat (map alldefs bs)) ->
  (forall b, In b bs -> Wn rk b) ->
  (forall b c t, In b bs -> In c bs -> In t (fv_graph b) -> ~ In t (alldefs c)) ->
  exists RK, (forall t, ~ In t (concat (map alldefs bs)) -> RK t = rk t) /\ forall b', In b' bs' -> Wn RK b'.
Proof.
  induction 1 as [|b b' bs bs' Hb F IH]; intros N Hw Hf.
  - exists rk. split; [auto|intros b' []].
  - cbn [map concat] in N. apply NoDup_app_inv in N. destruct N as (N1 & N2 & N3).
    destruct (IH N2) as (RK0 & R1 & R2).
    { intros. apply Hw. right. assumption. }
    { intros b0 c t Hb0 Hc Ht. apply (Hf b0); [right; assumption|right; assumption|assumption]. }
    destruct Hb as (rkb & Wb & Eqb & (Na & Nf & Nr) & _).
    exists (fun t => if mem t (alldefs b) then rkb t else RK0 t). split.
    + cbn [map concat]. intros t Ht. rewrite in_app_iff in Ht. destruct (mem t (alldefs b)) eqn:M.
      * apply mem_in in M. tauto.
      * apply R1. tauto.
    + intros b0 [<-|Hb0].
      * apply (rerank rkb); auto. intros t [Ht|Ht].
        -- apply Na in Ht. apply mem_in in Ht. now rewrite Ht.
        -- apply Nf in Ht. assert (M : ~ In t (alldefs b)) by (apply (Hf b b); cbn; auto).
           rewrite (proj2 (mem_false _ _) M). rewrite Nr by auto. apply R1.
           rewrite in_concat_map. intros (c & Hc & K). revert K. apply (Hf b c); cbn; auto.
      * apply (rerank RK0); auto. intros t Ht.
        assert (M : ~ In t (alldefs b)).
        { destruct (Forall2_in_r _ _ _ _ F Hb0) as (c & Hc & (rkc & _ & _ & (Ca & Cf & _) & _)). destruct Ht as [Ht|Ht].
          - intro K. apply (N3 t K). apply in_concat_map. eauto.
          - apply (Hf c b); cbn; auto. }
        now rewrite (proj2 (mem_false _ _) M).
Qed.

Lemma nested_NoDup ns : NoDup (concat (map alldefs_node ns)) -> NoDup (concat (map alldefs (concat (map f_bodies ns)))).
Proof.
  induction ns as [|n ns IH]; cbn; intro H; auto. apply NoDup_app_inv in H. destruct H as (A & B & C).
  rewrite map_app, concat_app. destruct n as [n1 n2 n3 n4 n5 n6 n7]. cbn [alldefs_node f_bodies] in *.
  apply NoDup_app_inv in A. destruct A as (A1 & A2 & A3). apply NoDup_app_intro; auto.
  intros t Ht K. apply (C t); [apply in_app_iff; auto|]. apply in_concat_map in K. apply in_concat_map. destruct K as (b & Hb & K).
  apply in_concat in Hb. destruct Hb as (l & Hl & Hb). apply in_map_iff in Hl. destruct Hl as (m & <- & Hm).
  exists m. split; auto. apply alldefs_in_node. right. eauto.
Qed.

(** replacing the bodies of a valid graph *)
Lemma lift_bodies rk ns ns' gi go : Wn rk (FGraph ns gi go) ->
  Forall2 (fun n n' => shell n n' /\ Forall2 (Rb rk) (f_bodies n) (f_bodies n')) ns ns' ->
  exists RK, Wn RK (FGraph ns' gi go) /\ equiv (FGraph ns gi go) (FGraph ns' gi go) /\
    narrow rk (FGraph ns gi go) RK (FGraph ns' gi go).
Proof.
  intros Hw F. assert (Hw' := Hw). destruct Hw' as [Wg Ws]. set (g := FGraph ns gi go) in *. set (g' := FGraph ns' gi go).
  assert (G := Wg g (within_refl _)).
  assert (Fb : Forall2 (Rb rk) (concat (map f_bodies ns)) (concat (map f_bodies ns'))).
  { apply Forall2_concat. clear - F. induction F as [|n n' ns ns' [_ H] F IH]; cbn; auto. }
  assert (Inb : forall b, In b (concat (map f_bodies ns)) -> exists n, In n ns /\ In b (f_bodies n)).
  { intros b Hb. apply in_concat in Hb. destruct Hb as (l & Hl & Hb). apply in_map_iff in Hl. destruct Hl as (m & <- & Hm). eauto. }
  assert (Wb : forall b, In b (concat (map f_bodies ns)) -> Wn rk b).
  { intros b Hb. destruct (Inb b Hb) as (n & Hn & Hnb). split.
    - intros h Hh. apply Wg. eapply within_body; eauto.
    - intros h m Hh. apply Ws. eapply within_body; eauto. }
  assert (Nestd : forall n b t, In n ns -> In b (f_bodies n) -> In t (defs g) \/ In t (fv_graph g) -> ~ In t (alldefs b)).
  { intros n b t Hn Hb. apply (good_not_nested rk g n b t G Hn Hb). }
  destruct (combine_ranks rk _ _ Fb) as (RK & R1 & R2); auto.
  { apply nested_NoDup. assert (N := g_ssa _ _ G). unfold g in N. cbn [alldefs] in N. apply NoDup_app_inv in N. tauto. }
  { intros b c t Hb Hc Ht. destruct (Inb b Hb) as (n & Hn & Hnb). destruct (Inb c Hc) as (m & Hm & Hmc).
    apply (Nestd m); auto. apply (used_defs_or_free g n); auto. rewrite fv_node_eq, in_app_iff, in_concat_map. right. eauto. }
  assert (Rout : forall t, In t (defs g) \/ In t (fv_graph g) -> RK t = rk t).
  { intros t Ht. apply R1. rewrite in_concat_map. intros (b & Hb & K). destruct (Inb b Hb) as (n & Hn & Hnb). revert K. apply (Nestd n); auto. }
  assert (Sh : Forall2 shell ns ns') by (eapply Forall2_imp; [|exact F]; cbn; tauto).
  assert (Fouts : concat (map f_out ns') = concat (map f_out ns)).
  { f_equal. apply Forall2_map_eq. eapply Forall2_imp; [|exact Sh]. intros x y _ _ K. apply K. }
  assert (Ed : defs g' = defs g) by (unfold defs, g', g; cbn [f_ins f_nodes]; now rewrite Fouts).
  assert (Fall : Forall2 (fun n n' => NoDup (alldefs_node n') /\ incl (alldefs_node n') (alldefs_node n)) ns ns').
  { eapply Forall2_imp; [|exact F]. intros n n' Hn Hn' [Hs Hb].
    assert (N : NoDup (alldefs_node n)).
    { apply in_split in Hn. destruct Hn as (l1 & l2 & E). assert (N := g_ssa _ _ G). unfold g in N. rewrite E in N.
      apply alldefs_split in N. tauto. }
    destruct Hs as (_ & _ & _ & _ & _ & Eo & _). destruct n as [n1 n2 n3 n4 n5 n6 n7], n' as [m1 m2 m3 m4 m5 m6 m7].
    cbn [alldefs_node f_out f_bodies] in *. subst m6. apply NoDup_app_inv in N. destruct N as (A & B & C).
    assert (K : NoDup (concat (map alldefs m7)) /\ incl (concat (map alldefs m7)) (concat (map alldefs n7))).
    { apply NoDup_concat_sub; auto. eapply Forall2_imp; [|exact Hb]. intros b b' _ _ (rkb & [Wb1 _] & _ & (Na & _) & _).
      split; [apply (g_ssa rkb); apply Wb1; constructor|exact Na]. }
    destruct K as [K1 K2]. split.
    - apply NoDup_app_intro; auto. intros t Ht Kt. apply (C t Ht). apply K2. auto.
    - apply incl_app; [apply incl_appl, incl_refl|apply incl_appr; auto]. }
  assert (Gs := g_ssa _ _ G). unfold g in Gs. cbn [alldefs] in Gs. apply NoDup_app_inv in Gs. destruct Gs as (Gs1 & Gs2 & Gs3).
  destruct (NoDup_concat_sub _ _ _ _ Fall Gs2) as [Ka Kb].
  assert (Hall : forall t, In t (alldefs g') -> In t (alldefs g)).
  { intros t. unfold g, g'. cbn [alldefs]. rewrite !in_app_iff. intros [H|H]; auto. }
  assert (Hfvn : forall n n', In n ns -> shell n n' -> Forall2 (Rb rk) (f_bodies n) (f_bodies n') -> forall t, In t (fv_node n') -> In t (fv_node n)).
  { intros n n' Hn (_ & _ & _ & _ & Ei & _) Hb t. rewrite !fv_node_eq, !in_app_iff, !in_concat_map, Ei. intros [Ht|(b' & Hb' & Ht)]; auto.
    right. destruct (Forall2_in_r _ _ _ _ Hb Hb') as (b & Hbn & (rkb & _ & _ & (_ & Nf & _) & _)). eauto. }
  assert (Hfv : forall t, In t (fv_graph g') -> In t (fv_graph g)).
  { intros t Ht. apply in_fv_graph in Ht. apply in_fv_graph. rewrite Ed in Ht. destruct Ht as [Hd Ht]. split; auto.
    unfold g, g' in *. cbn [f_ins f_outs f_nodes] in *. destruct Ht as [Ht|[Ht|(n' & Hn' & Ht)]]; auto.
    right. right. destruct (Forall2_in_r _ _ _ _ F Hn') as (n & Hn & Hs & Hb). exists n. split; auto. eapply Hfvn; eauto. }
  exists RK. split; [split|split].
  - intros h Hh. inversion Hh as [|n' b' h0 Hn' Hb' Hh']; subst.
    + constructor.
      * rewrite Ed. apply (g_outs _ _ G).
      * unfold g'. cbn [alldefs]. apply NoDup_app_intro; auto. intros t Ht K. apply (Gs3 t Ht). auto.
      * intros t Ht K. apply (g_scope _ _ G t); auto.
      * unfold g'. cbn [f_nodes]. rewrite (Forall2_map_eq f_name f_name ns ns'); [apply (g_names _ _ G)|].
        eapply Forall2_imp; [|exact Sh]. intros x y _ _ K. apply K.
      * intros n' t o Hn' Ht Ho No. unfold g' in Hn'. cbn [f_nodes] in Hn'.
        destruct (Forall2_in_r _ _ _ _ F Hn') as (n & Hn & Hs & Hb).
        assert (Ht' := Hfvn n n' Hn Hs Hb t Ht). assert (Eo : f_out n' = f_out n) by apply Hs. rewrite Eo in Ho.
        rewrite !Rout.
        -- apply (g_acyclic _ _ G n); auto.
        -- left. apply in_defs. split; auto. right. exists n. auto.
        -- apply (used_defs_or_free g n); auto.
      * apply (g_noself _ _ G).
    + unfold g' in Hn'. cbn [f_nodes] in Hn'. assert (Hin : In b' (concat (map f_bodies ns'))).
      { apply in_concat. exists (f_bodies n'). split; auto. now apply in_map. }
      apply (R2 b' Hin). auto.
  - intros h n' Hh Hn'. inversion Hh as [|m' b' h0 Hm' Hb' Hh']; subst.
    + unfold g' in Hn'. cbn [f_nodes] in Hn'. destruct (Forall2_in_r _ _ _ _ F Hn') as (n & Hn & Hs & _).
      apply (SN_shell n); auto. apply (Ws g); auto. constructor.
    + unfold g' in Hm'. cbn [f_nodes] in Hm'. assert (Hin : In b' (concat (map f_bodies ns'))).
      { apply in_concat. exists (f_bodies m'). split; auto. now apply in_map. }
      destruct (R2 b' Hin) as [_ Q]. apply (Q h); auto.
  - assert (Eh : forall n n' r, shell n n' -> Forall2 (Rb rk) (f_bodies n) (f_bodies n') -> (holds op_rel r n <-> holds op_rel r n')).
    { intros n n' r (_ & E2 & E3 & E4 & E5 & E6 & _) Hb. rewrite !holds_eq, E2, E3, E4, E5, E6.
      assert (K : same_beh V (map (body_rel op_rel r) (f_bodies n)) (map (body_rel op_rel r) (f_bodies n'))).
      { clear - Hb. induction Hb as [|b b' l l' (rkb & _ & Eq & _) Hb IH]; cbn; constructor; auto. }
      split; intros (vs & A & B); exists vs; (split; [|exact B]).
      - eapply ext; [exact K|exact A].
      - eapply ext; [apply same_beh_sym; exact K|exact A]. }
    assert (Eall : forall r, all_hold op_rel r ns <-> all_hold op_rel r ns').
    { intro r. unfold all_hold. split; intros H m Hm.
      - destruct (Forall2_in_r _ _ _ _ F Hm) as (n & Hn & Hs & Hb). apply (Eh n m r Hs Hb). auto.
      - destruct (Forall2_in_l _ _ _ _ F Hm) as (n & Hn & Hs & Hb). apply (Eh m n r Hs Hb). auto. }
    intros r a s. rewrite !body_rel_eq, Ed. unfold g, g'. cbn [f_ins f_nodes f_outs].
    split; intros (r' & A & B & C & D); exists r'; (split; [exact A|split; [exact B|split; [|exact D]]]); apply Eall; exact C.
  - split; [exact Hall|]. split; [exact Hfv|]. intros t Ht. apply R1. rewrite in_concat_map. intros (b & Hb & K).
    destruct (Inb b Hb) as (n & Hn & Hnb). apply Ht. apply alldefs_in. right. exists n. split; auto. apply alldefs_in_node. right. eauto.
Qed.

Theorem apply_opt_spec d : forall rk g, depth g <= d -> Wn rk g ->
  exists g' rk', apply_opt level d g = Some g' /\ Wn rk' g' /\ equiv g g' /\
    f_ins g' = f_ins g /\ f_outs g' = f_outs g /\ narrow rk g rk' g' /\ (forall h, within g' h -> Post h).
Proof.
  induction d as [|d IH]; intros rk g Hd Wg; [destruct g; cbn in Hd; lia|]. cbn [apply_opt].
  destruct (level_ok rk g Wg) as (g1 & rk1 & E1 & W1 & Eq1 & Ei1 & Eo1 & D1 & N1 & P1). rewrite E1.
  destruct g1 as [ns gi go]. assert (Dn : depth (FGraph ns gi go) <= S d) by lia. rewrite depth_nodes in Dn. cbn [f_nodes f_ins f_outs] in *.
  match goal with |- context [mapo ?f ns] => set (F := f) end.
  assert (K : exists ns', mapo F ns = Some ns' /\ Forall2 (fun n n' => shell n n' /\ Forall2 (Rb rk1) (f_bodies n) (f_bodies n')) ns ns').
  { apply mapo_forall. intros n Hn. assert (Db := Dn n Hn). rewrite depth_bodies in Db.
    assert (Kb : exists bs, mapo (apply_opt level d) (f_bodies n) = Some bs /\ Forall2 (Rb rk1) (f_bodies n) bs).
    { apply mapo_forall. intros b Hb. destruct (IH rk1 b (Db b Hb)) as (b' & rkb & E & Wb & Eqb & _ & _ & Nb & Pb).
      - destruct W1 as [W1 S1]. split.
        + intros h Hh. apply W1. eapply within_body; eauto.
        + intros h m Hh. apply S1. eapply within_body; eauto.
      - exists b'. split; auto. exists rkb. auto. }
    destruct Kb as (bs & E & Fb). destruct n as [n1 n2 n3 n4 n5 n6 n7]. cbn [f_bodies] in *. unfold F. rewrite E.
    eexists. split; [reflexivity|]. cbn [f_bodies]. split; auto. unfold shell. cbn. repeat split; auto.
    clear - Fb. induction Fb; cbn; auto. }
  destruct K as (ns' & E & Fn). rewrite E. destruct (lift_bodies rk1 ns ns' gi go W1 Fn) as (RK & W2 & Eq2 & N2).
  exists (FGraph ns' gi go), RK. split; auto. split; auto. split; [eapply equiv_trans; eauto|]. split; auto. split; auto.
  split; [eapply narrow_trans; eauto|]. intros h Hh. inversion Hh as [|n' b' h0 Hn' Hb' Hh']; subst.
  - apply (Post_shell ns); auto. eapply Forall2_imp; [|exact Fn]. cbn; tauto.
  - cbn [f_nodes] in Hn'. destruct (Forall2_in_r _ _ _ _ Fn Hn') as (n & Hn & Hs & Hb).
    destruct (Forall2_in_r _ _ _ _ Hb Hb') as (b & Hbn & (rkb & _ & _ & _ & Pb)). auto.
Qed.
End Apply.

Lemma apply_opt_fix level d : forall g, depth g <= d -> (forall h, within g h -> level h = Some h) -> apply_opt level d g = Some g.
Proof.
  induction d as [|d IH]; intros g Hd H; [destruct g; cbn in Hd; lia|]. cbn [apply_opt]. rewrite (H g (within_refl _)).
  rewrite depth_nodes in Hd. destruct g as [ns gi go]. cbn [f_nodes] in Hd.
  match goal with |- context [mapo ?f ns] => set (F := f) end.
  assert (E : mapo F ns = Some ns).
  { apply mapo_id. intros n Hn. assert (Db := Hd n Hn). rewrite depth_bodies in Db.
    assert (Eb : mapo (apply_opt level d) (f_bodies n) = Some (f_bodies n)).
    { apply mapo_id. intros b Hb. apply IH; auto. intros h Hh. apply H. eapply within_body; eauto. }
    destruct n as [n1 n2 n3 n4 n5 n6 n7]. unfold F. cbn [f_bodies] in Eb. now rewrite Eb. }
  now rewrite E.
Qed.
