(** C58: a list of matches, each handled on the graph the earlier ones left. *)
From Coq Require Import String List Bool Arith Lia ZArith.
From Verif Require Import FGraph FGraphProofs FGraphSpec IdentityModel IdentityProofs ApplyOptProofs RewriteProofs Tensor MatchModel RewModel RewProofs.
Import ListNotations.
Local Open Scope string_scope. Local Open Scope list_scope. Local Open Scope nat_scope.

Lemma append_inj_r s : forall a b, (a ++ s)%string = (b ++ s)%string -> a = b.
Proof.
  assert (L : forall a b, String.length (a ++ b) = String.length a + String.length b) by (induction a; intros; cbn; auto).
  induction a as [|c a IH]; intros [|d b] E; cbn in E; auto.
  - exfalso. apply (f_equal String.length) in E. cbn in E. rewrite L in E. lia.
  - exfalso. apply (f_equal String.length) in E. cbn in E. rewrite L in E. lia.
  - injection E as -> E. f_equal. auto.
Qed.
Lemma port0_inj a b : port0 a = port0 b -> a = b.
Proof. apply append_inj_r. Qed.

Section Run.
Variable V : Type.
Variable op_rel : string -> string -> list (string * attr) -> nat -> list V -> list (list V -> list V -> Prop) -> list V -> Prop.
Hypothesis OE : op_ext op_rel.
Let all_hold := all_hold op_rel.
Variable name : nat -> string.
Hypothesis name_inj : forall i j, name i = name j -> i = j.
Variables (gi go : list string).
Let graph_of (s : state) : fgraph := FGraph (s_nodes s) gi go.

Variable plan : state -> match_result -> option (option action).
Variable T : env V -> state -> Prop.
Variable k1 : nat.
(** what is known about a match that is still to be handled; what must hold between a match and a later one *)
Variable P : match_result -> state -> Prop.
Variable C : match_result -> match_result -> Prop.
Hypothesis plan_some : forall rk s m, WW rk (graph_of s) -> P m s -> plan s m <> None.
Hypothesis plan_sound : forall rk s m a, WW rk (graph_of s) -> P m s -> plan s m = Some (Some a) ->
  exists root, sound_action rk (graph_of s) a root /\
    forall r, all_hold r (s_nodes s) -> T r s -> op_rel (a_op a) "" (a_attrs a) 1 (map r (a_ins a)) [] [r (a_out a)].
(** a step keeps the later matches alive *)
Hypothesis plan_keeps : forall rk s m a nm s' m', WW rk (graph_of s) -> P m s -> plan s m = Some (Some a) -> fresh_for nm (graph_of s) -> (exists i, k1 <= i /\ nm = name i) ->
  fuse nm a s = Some s' -> C m m' -> P m' s -> P m' s'.
Hypothesis T_keeps : forall rk s m a nm s' r, WW rk (graph_of s) -> P m s -> plan s m = Some (Some a) -> fresh_for nm (graph_of s) ->
  fuse nm a s = Some s' -> all_hold r (s_nodes s) -> T r s -> T (set_env V r (port0 nm) (r (a_out a))) s'.

(** what is kept by every step *)
Variable I : state -> Prop.
Hypothesis I_keeps : forall rk s m a nm s', WW rk (graph_of s) -> P m s -> plan s m = Some (Some a) -> fresh_for nm (graph_of s) -> (exists i, k1 <= i /\ nm = name i) ->
  fuse nm a s = Some s' -> I s -> I s'.

Definition fresh_from (k : nat) (g : fgraph) : Prop := forall i, k <= i -> fresh_for (name i) g.
Lemma run_ok ms : forall k s, k1 <= k -> (exists rk, WW rk (graph_of s)) -> fresh_from k (graph_of s) -> ForallOrdPairs C ms -> Forall (fun m => P m s) ms -> I s ->
  exists k' s', run_matches name plan ms k s = Some (k', s') /\ k <= k' /\ (exists rk, WW rk (graph_of s')) /\ fresh_from k' (graph_of s') /\
    (forall t, In t (fv_graph (graph_of s')) -> In t (fv_graph (graph_of s))) /\
    (forall t, In t (defs (graph_of s')) -> In t (defs (graph_of s)) \/ exists i, k <= i < k' /\ t = port0 (name i)) /\
    (forall r, all_hold r (s_nodes s) -> T r s -> exists r', (forall t, (forall i, k <= i < k' -> t <> port0 (name i)) -> r' t = r t) /\
       all_hold r' (s_nodes s') /\ T r' s') /\ I s'.
Proof.
  induction ms as [|m ms IH]; intros k s Hk [rk W] F O A II.
  - exists k, s. cbn [run_matches]. split; [reflexivity|]. split; [lia|]. split; [eauto|]. split; [auto|]. split; [auto|]. split; [auto|].
    split; [|exact II]. intros r Hr Ht. exists r. auto.
  - inversion O as [|? ? O1 O2]; subst. inversion A as [|? ? A1 A2]; subst. cbn [run_matches].
    destruct (plan s m) as [[a|]|] eqn:E; [| |exfalso; exact (plan_some rk s m W A1 E)].
    2: { apply IH; eauto. }
    destruct (plan_sound rk s m a W A1 E) as (root & SA & Sem). assert (Fk := F k (le_n k)).
    destruct (fuse_ok V op_rel OE rk s gi go a (name k) root W Fk SA) as (s1 & E1 & (rk1 & W1 & RE) & FV & DF & AH & K1 & K2 & K3 & K4). rewrite E1.
    destruct (IH (S k) s1) as (k' & s' & R & Le & W' & F' & FV' & DF' & AH' & II').
    + lia.
    + eauto.
    + intros i Hi. destruct (F i) as (N1 & N2 & N3); [lia|]. assert (Ni : name i <> name k) by (intros Q; apply name_inj in Q; lia). split; [|split].
      * intros K. apply in_map_iff in K. destruct K as (n & En & Hn). cbn [graph_of f_nodes] in Hn. destruct (K4 n Hn) as [->|(n0 & Hn0 & ->)].
        -- apply Ni. symmetry. exact En.
        -- apply N1. rewrite f_name_subst in En. rewrite <- En. apply in_map. exact Hn0.
      * intros K. apply alldefs_in in K. cbn [graph_of f_ins f_nodes] in K. destruct K as [K|(n & Hn & K)]; [apply N2; apply alldefs_in; left; exact K|].
        destruct (K4 n Hn) as [->|(n0 & Hn0 & ->)].
        -- apply alldefs_in_node in K. cbn [new_node f_out f_bodies] in K. destruct K as [[[K|[]] _]|(b & [] & _)]. apply Ni. apply port0_inj. auto.
        -- rewrite (proj1 (alldefs_subst _ _)) in K. apply N2. apply alldefs_in. right. exists n0. auto.
      * intros K. apply N3. apply FV. exact K.
    + exact O2.
    + rewrite Forall_forall in *. intros m' Hm'. apply (plan_keeps rk s m a (name k) s1 m'); eauto.
    + apply (I_keeps rk s m a (name k) s1); eauto.
    + exists k', s'. split; [exact R|]. split; [lia|]. split; [exact W'|]. split; [exact F'|]. split; [intros t Ht; apply FV; auto|]. split; [|split; [|exact II']].
      * intros t Ht. destruct (DF' t Ht) as [K|(i & Hi & ->)]; [|right; exists i; split; [lia|auto]]. destruct (DF t K) as [->|K']; auto. right. exists k. split; [lia|auto].
      * intros r Hr Ht. destruct (AH' (set_env V r (port0 (name k)) (r (a_out a)))) as (r' & R1 & R2 & R3).
        -- apply AH; auto.
        -- apply (T_keeps rk s m a (name k) s1 r); auto.
        -- exists r'. split; [|auto]. intros t Nt. rewrite R1.
           ++ unfold set_env. destruct (String.eqb_spec t (port0 (name k))) as [->|]; auto. exfalso. apply (Nt k); [lia|reflexivity].
           ++ intros i Hi. apply Nt. lia.
Qed.
End Run.

(** ** from valuations to behaviour *)
Section Behaviour.
Variable V : Type.
Variable op_rel : string -> string -> list (string * attr) -> nat -> list V -> list (list V -> list V -> Prop) -> list V -> Prop.
Hypothesis OE : op_ext op_rel.
Lemma behaves rk ns ns' gi go (T : env V -> Prop) : WW rk (FGraph ns gi go) -> (exists rk', WW rk' (FGraph ns' gi go)) ->
  (forall t, In t (fv_graph (FGraph ns' gi go)) -> In t (fv_graph (FGraph ns gi go))) ->
  (forall r, all_hold op_rel r ns -> T r -> exists r', (forall t, In t (defs (FGraph ns gi go)) \/ In t (fv_graph (FGraph ns gi go)) -> r' t = r t) /\ all_hold op_rel r' ns') ->
  forall r r0 args res, (forall t, ~ In t (defs (FGraph ns gi go)) -> r0 t = r t) -> all_hold op_rel r0 ns -> T r0 -> map r0 gi = args -> map r0 go = res ->
    body_rel op_rel r (FGraph ns' gi go) args res.
Proof.
  intros W [rk' W'] FV H r r0 args res A B Ht D E. destruct (H r0 B Ht) as (r1 & R1 & R2). apply body_rel_eq.
  set (g := FGraph ns gi go) in *. set (g' := FGraph ns' gi go) in *. assert (G := W g (within_refl _)). assert (G' := W' g' (within_refl _)).
  exists (fun t => if in_dec string_dec t (defs g') then r1 t else r t).
  assert (In_ok : forall t, In t gi -> In t (defs g) /\ In t (defs g')).
  { intros t Hi. assert (t <> "") by (intros ->; apply (g_noself _ _ G); exact Hi). split; apply in_defs; auto. }
  split; [|split; [|split]].
  - intros t Nt. destruct (in_dec string_dec t (defs g')); [contradiction|reflexivity].
  - rewrite <- D. cbn [f_ins]. apply map_ext_in. intros t Hi. destruct (In_ok t Hi) as [K K']. destruct (in_dec string_dec t (defs g')); [|contradiction]. apply R1. auto.
  - intros n Hn. apply (holds_agree V op_rel OE n r1); [| |exact (R2 n Hn)].
    + intros x Hx. destruct (in_dec string_dec x (defs g')) as [K|K]; [reflexivity|]. assert (K' : In x (fv_graph g')) by (apply in_fv_graph; split; auto; right; right; exists n; auto).
      assert (K2 := FV x K'). rewrite R1 by auto. apply A. apply in_fv_graph in K2. tauto.
    + intros x Hx Nx. destruct (in_dec string_dec x (defs g')) as [K|K]; [reflexivity|]. exfalso. apply K. apply in_defs. split; auto. right. exists n. auto.
  - rewrite <- E. cbn [f_outs]. apply map_ext_in. intros t Ho. assert (K := g_outs _ _ G t Ho). assert (K' := g_outs _ _ G' t Ho).
    destruct (in_dec string_dec t (defs g')); [|contradiction]. apply R1. auto.
Qed.
End Behaviour.
