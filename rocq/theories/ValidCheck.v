(** A sound boolean check of [valid], used only to show that concrete graphs meet hypotheses. *)
From Coq Require Import String List Bool Arith Lia.
From Verif Require Import FGraph FGraphSpec DeadSpec.
Import ListNotations.
Local Open Scope string_scope.
Local Open Scope list_scope.

Fixpoint graphs_node (n : fnode) : list fgraph :=
  match n with FNode _ _ _ _ _ _ bs => concat (map graphs_of bs) end
with graphs_of (g : fgraph) : list fgraph :=
  g :: match g with FGraph ns _ _ => concat (map graphs_node ns) end.

Lemma within_graphs g h : within g h -> In h (graphs_of g).
Proof.
  induction 1 as [g|g n b h Hn Hb _ IH].
  - destruct g. cbn. auto.
  - destruct g as [ns gi go]. cbn [graphs_of In]. right. cbn [f_nodes] in Hn. apply in_concat. exists (graphs_node n).
    split; [now apply in_map|]. destruct n as [n1 n2 n3 n4 n5 n6 n7]. cbn [graphs_node]. cbn [f_bodies] in Hb.
    apply in_concat. exists (graphs_of b). split; [now apply in_map|exact IH].
Qed.
Fixpoint nodupb (l : list string) : bool := match l with [] => true | x :: l' => negb (mem x l') && nodupb l' end.
Lemma memb_spec x l : mem x l = true <-> In x l.
Proof.
  unfold mem. rewrite existsb_exists. split.
  - intros (y & Hy & E). apply String.eqb_eq in E. now subst.
  - intro H. exists x. split; auto. apply String.eqb_refl.
Qed.
Lemma nodupb_spec l : nodupb l = true -> NoDup l.
Proof.
  induction l as [|x l IH]; cbn [nodupb]; [constructor|]. rewrite andb_true_iff, negb_true_iff. intros [A B]. constructor; auto.
  intro H. apply memb_spec in H. congruence.
Qed.
Definition good_check (rk : string -> nat) (g : fgraph) : bool :=
  forallb (fun o => mem o (defs g)) (f_outs g) && nodupb (alldefs g) &&
  forallb (fun t => negb (mem t (alldefs g))) (fv_graph g) && nodupb (map f_name (f_nodes g)) &&
  forallb (fun n => forallb (fun t => forallb (fun o => String.eqb o "" || Nat.ltb (rk t) (rk o)) (f_out n)) (fv_node n)) (f_nodes g) &&
  negb (mem "" (f_ins g)).
Lemma good_check_spec rk g : good_check rk g = true -> good rk g.
Proof.
  unfold good_check. rewrite !andb_true_iff, !forallb_forall, negb_true_iff. intros (((((A & B) & C) & D) & E) & F). constructor.
  - intros o Ho. apply memb_spec. auto.
  - now apply nodupb_spec.
  - intros t Ht K. apply memb_spec in K. specialize (C t Ht). rewrite K in C. discriminate.
  - now apply nodupb_spec.
  - intros n t o Hn Ht Ho No. specialize (E n Hn). rewrite forallb_forall in E. specialize (E t Ht). rewrite forallb_forall in E.
    specialize (E o Ho). rewrite orb_true_iff, String.eqb_eq, Nat.ltb_lt in E. tauto.
  - intro K. apply memb_spec in K. congruence.
Qed.
Definition rank_of (l : list (string * nat)) (t : string) : nat :=
  match find (fun p => String.eqb (fst p) t) l with Some (_, k) => k | None => 0 end.
Definition valid_check (l : list (string * nat)) (g : fgraph) : bool := forallb (good_check (rank_of l)) (graphs_of g).
Lemma valid_check_spec l g : valid_check l g = true -> valid g.
Proof.
  unfold valid_check. rewrite forallb_forall. intro H. exists (rank_of l). intros h Hh. apply good_check_spec, H, within_graphs, Hh.
Qed.
Definition nodes_check (p : fnode -> bool) (g : fgraph) : bool := forallb (fun h => forallb p (f_nodes h)) (graphs_of g).
Lemma nodes_check_spec p g : nodes_check p g = true -> forall h n, within g h -> In n (f_nodes h) -> p n = true.
Proof.
  unfold nodes_check. rewrite forallb_forall. intros H h n Hh Hn. specialize (H h (within_graphs _ _ Hh)). rewrite forallb_forall in H. auto.
Qed.
Lemma named_check g : nodes_check (fun n => negb (mem "" (f_out n))) g = true -> named_outputs g.
Proof.
  intros H h n Hh Hn K. apply memb_spec in K. assert (Q := nodes_check_spec _ _ H h n Hh Hn). cbn in Q. rewrite K in Q. discriminate.
Qed.
