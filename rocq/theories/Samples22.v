(** Example data for T_Heap: an allocator, and a Triangle that always gives the same answer. *)
From Coq Require Import List Bool ZArith Lia.
From Verif Require Import Base MUtil MGeom MPolygon MMaps MTriangle MGen MRegion MDelaunay MHeap BridgeHeap.
Import ListNotations.
Local Open Scope Z_scope.

Section Sample.
  Context {N : Num}.
  Notation heap := (heap N).
  Definition top (h : heap) : Z := fold_right (fun e t => Z.max (fst e) t) 0 h.
  Definition next_block (_ : nat) (h : heap) (n : Z) : option Z := if n =? 0 then None else Some (top h + 1).
  Lemma top_get : forall (h : heap) b, top h < b -> hp_get h b = None.
  Proof.
    induction h as [|[c l] h IH]; intros b H; [reflexivity|]. cbn [top fold_right fst] in H. cbn [hp_get]. destruct (b =? c) eqn:E; [apply Z.eqb_eq in E; lia|]. apply IH. unfold top. lia.
  Qed.
  Lemma next_block_fresh : fresh_blocks next_block.
  Proof. intros k h n b E. unfold next_block in E. destruct (n =? 0); [discriminate|]. injection E as <-. apply top_get. lia. Qed.
  Lemma next_block_enough : enough_memory next_block.
  Proof. intros k h n P. unfold next_block. destruct (n =? 0) eqn:E; [apply Z.eqb_eq in E; lia|discriminate]. Qed.

  (** the answer [o]; segments without markers, as many attributes as points; the lists of holes and regions are those of the input *)
  Definition steady (o : trout N) (_ : switches) (h : heap) (io out0 : tio) : res (heap * tio) :=
    let t := top h in
    Ok ([(t + 1, reals2 (map fst (o_points o))); (t + 2, map (fun q => CInt (snd q)) (o_points o)); (t + 3, ints2 (map fst (o_edges o)));
         (t + 4, map (fun q => CInt (snd q)) (o_edges o)); (t + 5, ints3 (o_tris o)); (t + 6, map (fun _ => CReal (nZ 0)) (o_points o)); (t + 7, ints2 (map fst (o_edges o)))] ++ h,
        mkTio (fun f => match f with
                        | pointlist => Ptr (t + 1) | pointmarkerlist => Ptr (t + 2) | edgelist => Ptr (t + 3) | edgemarkerlist => Ptr (t + 4)
                        | trianglelist => Ptr (t + 5) | pointattributelist => Ptr (t + 6) | segmentlist => Ptr (t + 7)
                        | holelist => io_ptr io holelist | regionlist => io_ptr io regionlist | _ => io_ptr out0 f end)
              (fun m => match m with
                        | numberofpoints => Some (zlen (o_points o)) | numberofedges => Some (zlen (o_edges o)) | numberoftriangles => Some (zlen (o_tris o))
                        | numberofholes => io_num io numberofholes | numberofregions => io_num io numberofregions | _ => Some 0 end)).
  Ltac eqb_off := match goal with |- context [?a =? ?b] => let E := fresh "E" in destruct (a =? b) eqn:E; [apply Z.eqb_eq in E|clear E] end.
  Lemma steady_honest : forall o, honest (steady o) (fun _ _ => o).
  Proof.
    intros o sw h io out0 inp H Z0 F. unfold steady. eexists. eexists. split; [reflexivity|]. split; [|split; [|split; [|split]]].
    - constructor; cbn [io_ptr io_num array_is hp_get app]; repeat first [split | reflexivity | rewrite Z.eqb_refl | (eqb_off; [exfalso; lia|])].
    - intros b l G. assert (K : b <= top h) by (destruct (Z_le_gt_dec b (top h)) as [K|K]; [exact K|exfalso; rewrite (top_get h b) in G by lia; discriminate]).
      cbn [app hp_get]. repeat (eqb_off; [exfalso; lia|]). exact G.
    - assert (G : forall i, 1 <= i <= 7 -> hp_get h (top h + i) = None) by (intros i I; apply top_get; lia).
      intros f I. cbn [io_ptr]. destruct f; cbn in I;
        try (right; eexists; split; [reflexivity|]; split; [apply G; lia|]; cbn [app hp_get]; repeat first [rewrite Z.eqb_refl; discriminate | (eqb_off; [exfalso; lia|])]);
        try (left; apply Z0; cbn; tauto); exfalso; intuition discriminate.
    - assert (ZN : forall f b, In f written -> io_ptr out0 f <> Ptr b) by (intros f b I E; rewrite (Z0 f I) in E; discriminate).
      intros f g b I J E E'. cbn [io_ptr] in E, E'.
      destruct f; cbn in I; try (exfalso; clear - I; intuition discriminate); try (exfalso; refine (ZN _ _ _ E); cbn; tauto); injection E as E;
        destruct g; cbn in J; try (exfalso; clear - J; intuition discriminate); try (exfalso; refine (ZN _ _ _ E'); cbn; tauto); injection E' as E'; try reflexivity; exfalso; lia.
    - intros b G L. cbn [app hp_get] in L.
      destruct (b =? top h + 1) eqn:E1; [exists pointlist; split; [cbn; tauto|cbn; apply Z.eqb_eq in E1; rewrite E1; reflexivity]|].
      destruct (b =? top h + 2) eqn:E2; [exists pointmarkerlist; split; [cbn; tauto|cbn; apply Z.eqb_eq in E2; rewrite E2; reflexivity]|].
      destruct (b =? top h + 3) eqn:E3; [exists edgelist; split; [cbn; tauto|cbn; apply Z.eqb_eq in E3; rewrite E3; reflexivity]|].
      destruct (b =? top h + 4) eqn:E4; [exists edgemarkerlist; split; [cbn; tauto|cbn; apply Z.eqb_eq in E4; rewrite E4; reflexivity]|].
      destruct (b =? top h + 5) eqn:E5; [exists trianglelist; split; [cbn; tauto|cbn; apply Z.eqb_eq in E5; rewrite E5; reflexivity]|].
      destruct (b =? top h + 6) eqn:E6; [exists pointattributelist; split; [cbn; tauto|cbn; apply Z.eqb_eq in E6; rewrite E6; reflexivity]|].
      destruct (b =? top h + 7) eqn:E7; [exists segmentlist; split; [cbn; tauto|cbn; apply Z.eqb_eq in E7; rewrite E7; reflexivity]|].
      contradiction.
  Qed.
End Sample.
