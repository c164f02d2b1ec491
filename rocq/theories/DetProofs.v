(** A graph of operators that are functions computes a function. *)
From Coq Require Import String List Bool Arith Lia.
From Verif Require Import FGraph FGraphProofs FGraphSpec IdentityProofs RewriteProofs.
Import ListNotations.
Local Open Scope string_scope. Local Open Scope list_scope.

(** operators whose outputs are determined by their inputs, if their bodies' are *)
Definition deterministic {V} (op_rel : string -> string -> list (string * attr) -> nat -> list V ->
                     list (list V -> list V -> Prop) -> list V -> Prop) : Prop :=
  forall op dom at_ k ins bs vs vs', Forall (fun b : list V -> list V -> Prop => forall a s s', b a s -> b a s' -> s = s') bs ->
    op_rel op dom at_ k ins bs vs -> op_rel op dom at_ k ins bs vs' -> vs = vs'.

Section Det.
Variable V : Type.
Variable op_rel : string -> string -> list (string * attr) -> nat -> list V -> list (list V -> list V -> Prop) -> list V -> Prop.
Hypothesis OE : op_ext op_rel.
Hypothesis DET : deterministic op_rel.
Lemma map_eq_in {A B} (f g : A -> B) l x : map f l = map g l -> In x l -> f x = g x.
Proof. induction l as [|y l IH]; cbn; [tauto|]. intros E [->|H]; injection E as E1 E2; auto. Qed.
Lemma det : (forall n, (forall b, In b (f_bodies n) -> exists rk, WW rk b) -> forall r1 r2 : env V, (forall x, In x (fv_node n) -> r1 x = r2 x) ->
      holds op_rel r1 n -> holds op_rel r2 n -> forall o, In o (f_out n) -> o <> "" -> r1 o = r2 o) /\
  (forall g rk, WW rk g -> forall r a s s', body_rel op_rel r g a s -> body_rel op_rel r g a s' -> s = s').
Proof.
  apply fnode_fgraph_ind.
  - intros nm op dom at_ ins outs bodies IH Wb r1 r2 A H1 H2 o Ho No. cbn [f_out f_bodies] in *. rewrite fv_node_eq in A. cbn [f_in f_bodies] in A.
    apply holds_eq in H1. apply holds_eq in H2. cbn [f_op f_dom f_attrs f_out f_in f_bodies] in *. destruct H1 as (vs1 & H1 & P1). destruct H2 as (vs2 & H2 & P2).
    assert (E : vs1 = vs2).
    { apply (DET op dom at_ (length outs) (map r2 ins) (map (body_rel op_rel r2) bodies)); auto.
      - apply Forall_forall. intros b Hb. apply in_map_iff in Hb. destruct Hb as (c & <- & Hc). destruct (Wb c Hc) as (rk & Wc). intros a s s'. apply (IH c Hc rk Wc).
      - replace (map r2 ins) with (map r1 ins) by (apply map_ext_in; intros x Hx; apply A, in_app_iff; auto).
        apply (OE op dom at_ (length outs) (map r1 ins) (map (body_rel op_rel r1) bodies)); auto.
        assert (K : forall b, In b bodies -> forall a s, body_rel op_rel r1 b a s <-> body_rel op_rel r2 b a s).
        { intros b Hb. apply body_agree; auto. intros x Hx. apply A, in_app_iff. right. apply in_concat_map. exists b. auto. }
        clear - K. induction bodies as [|b l IHl]; cbn; constructor; [apply K; left; auto|]. apply IHl. intros c Hc. apply K. right. exact Hc. }
    subst vs2. apply In_nth_error in Ho. destruct Ho as (k & Hk). specialize (P1 k o Hk No). specialize (P2 k o Hk No). congruence.
  - intros ns gi go IH rk W r a s s' H1 H2. apply body_rel_eq in H1. apply body_rel_eq in H2. destruct H1 as (r1 & A1 & B1 & C1 & D1). destruct H2 as (r2 & A2 & B2 & C2 & D2).
    set (g := FGraph ns gi go) in *. assert (G := W g (within_refl _)).
    assert (K : forall N t, rk t < N -> r1 t = r2 t).
    { induction N as [|N IHN]; [lia|]. intros t Ht. destruct (in_dec string_dec t (defs g)) as [Hd|Hd]; [|rewrite A1, A2 by exact Hd; reflexivity].
      apply in_defs in Hd. destruct Hd as [Nt [Hi|(n & Hn & Ho)]].
      - apply (map_eq_in r1 r2 gi); auto. cbn [g f_ins] in B1, B2. congruence.
      - cbn [g f_nodes] in Hn, C1, C2. apply (IH n Hn) with (r1 := r1) (r2 := r2); auto.
        + intros b Hb. exists rk. apply (WW_body rk g n b W); auto.
        + intros x Hx. apply IHN. assert (Q := g_acyclic _ _ G n x t Hn Hx Ho Nt). lia. }
    rewrite <- D1, <- D2. apply map_ext. intros t. apply (K (S (rk t))). lia.
Qed.
Theorem graph_function g : valid g -> forall r a s s', body_rel op_rel r g a s -> body_rel op_rel r g a s' -> s = s'.
Proof. intros (rk & W). exact (proj2 det g rk W). Qed.
End Det.
