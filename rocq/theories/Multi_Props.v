(** C13: a systematic with extra axes is the sequence of the bookings of its slices. *)
From Coq Require Import List Arith Bool String Permutation Sorted Lia ZArith Reals Lra.
From Verif Require Param_Names.
From Verif Require Import PyList PyDict ListUtil Order Num RBase Shape Names_Model Writer_Model Writer_Spec Writer_Layout Writer_Tensor Writer_Hist Writer_Denote Writer_Master
  Multi_Model Multi_Spec Multi_Geom Multi_Slices Multi_Loop Multi_Batch Multi_Hist Multi_Proof.
Import ListNotations.
Local Open Scope nat_scope.
Local Open Scope string_scope.
Local Open Scope list_scope.

(** ** theorems *)
(** the written file, for any history of ordinary calls and calls with extra axes: booking with
    extra axes, looped or batched, in dense or sparse mode, has written exactly what the
    ordinary calls for the slices stand for.  The batched path may have its axes in any order. *)
Theorem C13_written sorter cfg chaxes (l : list (xop R)) st w :
  a_sort sorter -> Forall (xwf chaxes) l -> Forall (chaxes_ok chaxes) l -> NoDup (xchans l) ->
  xrun sorter cfg chaxes init_state l = Ok st -> write cfg st = Ok w ->
  exists H, expand_all chaxes [] l H /\
    (constraint_stable H ->
     NoDup (w_systs w) /\ (forall s, In s (w_systs w) <-> declared H s) /\
     (forall g idx, In (g, idx) (w_groups w) -> forall i,
        In i idx <-> exists s, nth_error (w_systs w) i = Some s /\ declared_in_group H g s) /\
     w_symmetric w = negb (existsb is_asym H) /\
     forall c s e i ip p, In (c, (s, e)) (reader_ranges 0 (w_channels w)) -> i < e - s ->
       nth_error (w_procs w) ip = Some p -> holds_at cfg H w c s i ip p).
Proof. intros. eapply multi_written; eauto. exact zero_law_R. Qed.

(** the loop (dense histograms, pairs, full variations): same state and same exception as the
    ordinary calls made one after the other, from any state *)
Theorem C13_loop {V} {NV : Num V} sorter cfg chx (st : state V) h name p ch kf mi m ad sa kw info extra :
  dget ch (st_channels st) = Some info ->
  detect_extra (x_names chx) (x_names (mh_axes (ref_of h))) sa = Ok (Some extra) ->
  fits_input h extra chx -> batched_call h mi ad = false -> mixed_pair h = false ->
  exists ops,
    let ex := axes_by_name (mh_axes (ref_of h)) extra in
    Forall2 (single_call (ch_flow info) ex chx h name p ch kf mi m ad kw) (all_idx (map x_size ex)) ops /\
    add_multi sorter cfg chx st h name p ch kf mi m ad sa kw = run cfg st ops.
Proof. apply multi_loop. Qed.
Theorem C13_no_extra {V} {NV : Num V} sorter cfg chx (st : state V) h name p ch kf mi m ad sa kw info :
  dget ch (st_channels st) = Some info ->
  detect_extra (x_names chx) (x_names (mh_axes (ref_of h))) sa = Ok None ->
  fits_input h [] chx ->
  exists o, single_call (ch_flow info) [] chx h name p ch kf mi m ad kw [] o /\
    add_multi sorter cfg chx st h name p ch kf mi m ad sa kw = run cfg st [o].
Proof. apply multi_plain. Qed.

(** which axes are the extra ones *)
Theorem C13_extra_axes chn hn sa r : detect_extra chn hn sa = Ok r ->
  (forall l, r = Some l -> l = spec_extra chn hn sa) /\
  (r = None -> NoDup hn -> NoDup chn -> incl chn hn -> spec_extra chn hn sa = []).
Proof. apply detect_spec. Qed.
(** requested axes that are not extra axes of the histogram raise *)
Theorem C13_bad_axes chn hn l : l <> [] -> (exists n, In n l /\ (~ In n hn \/ In n chn)) ->
  detect_extra chn hn (Some l) = Raise RuntimeError.
Proof.
  intros N (n & I & B). unfold detect_extra. destruct l as [|a l]; [contradiction|].
  destruct (forallb _ (a :: l)) eqn:F; auto. rewrite forallb_forall in F. specialize (F n I). apply andb_true_iff in F. destruct F as [F1 F2].
  apply smem_In in F1. apply negb_true_iff in F2. exfalso. destruct B as [B|B]; [auto|]. apply smem_In in B. congruence.
Qed.
(** a histogram whose axes have other edges than the channel's is rejected *)
Theorem C13_edges {V} {NV : Num V} sorter cfg chx (st : state V) h name p ch kf mi m ad sa kw info nm :
  dget ch (st_channels st) = Some info -> st_norm st ch p = Some nm ->
  detect_extra (x_names chx) (x_names (mh_axes h)) sa = Ok None ->
  (exists k a c, nth_error (mh_axes h) k = Some a /\ nth_error chx k = Some c /\ x_tag a <> x_tag c) ->
  List.length chx <= List.length (mh_axes h) ->
  add_multi sorter cfg chx st (ISingle h) name p ch kf mi m ad sa kw = Raise RuntimeError.
Proof. apply multi_edges. Qed.
(** the booked names are those of the bins, and distinct bins have distinct names when the
    labels contain no underscore *)
Theorem C13_names name ex : batch_names name ex = map (spec_name name ex) (all_idx (map x_size ex)) /\
  map (sub_name name ex) (all_idx (map x_size ex)) = map (spec_name name ex) (all_idx (map x_size ex)) /\
  (Forall clean_axis ex -> NoDup (batch_names name ex)).
Proof.
  split; [apply batch_names_spec|]. split.
  - apply map_ext_in. intros i I. apply sub_name_spec. apply all_idx_In, in_shape_len in I. rewrite map_length in I. auto.
  - intros F. rewrite batch_names_spec. apply Param_Names.NoDup_map_inj; [apply all_idx_NoDup|].
    intros i j I J. apply names_distinct; auto; apply all_idx_In; auto.
Qed.

(** ** examples *)
#[local] Existing Instance Num_Z.
#[local] Instance NumLaws_Z : NumLaws Z.
Proof. split. intros v. change (Z.eqb 0 v = true <-> v = 0%Z). rewrite Z.eqb_eq. split; auto. Qed.
Definition kwm := mkKw false true None.
Definition ax_x := mkMx "x" 2 1 1 1 None.
Definition ax_s := mkMx "s" 2 0 1 5 (Some ["up"; "down"]).
Definition ax_t := mkMx "t" 3 1 1 6 None.
Definition srt (l : list (nat * (nat * Z))) := sort_k fst Nat.compare l.
Definition chax (n : string) : list maxis := if String.eqb n "ch" then [ax_x] else [].
(** one channel with one axis of two bins and its template *)
Definition one_chan (sp : bool) : list (xop Z) :=
  [ XOne (AddChannel (Some "ch") [(2, 4)] false false);
    XOne (AddProcess (HDense [10; 20]%Z [1; 1]%Z) "sig" "ch" true None);
    XOne (AddData "ch" [9; 22]%Z [9; 22]%Z) ].
Definition xfile sp (l : list (xop Z)) : result (workspace Z) :=
  st <- xrun srt (mkCfg sp Normal false) chax init_state l ;; write (mkCfg sp Normal false) st.
Definition xprobe {A} (r : result (workspace Z)) (f : workspace Z -> A) : option A :=
  match r with Ok w => Some (f w) | Raise _ => None end.
Definition content (w : workspace Z) : list (string * list Z) :=
  map (fun k => (nth k (w_systs w) "", map (fun b => view_logk (w_tensors w) b 0 k) [0; 1])) (seq 0 (List.length (w_systs w))).

(** a SparseHist over s, x and t: with-flow extents 3, 4 and 5, entries in no particular order *)
Definition flat3 (s x t : nat) : nat := ravel [3; 4; 5] [s; x; t].
Definition sp3 : mhist Z := MSparse [ax_s; ax_x; ax_t]
  [(flat3 1 2 3, 7%Z); (flat3 0 1 1, 4%Z); (flat3 0 2 1, 5%Z); (flat3 2 1 1, 8%Z); (flat3 1 0 3, 8%Z); (flat3 0 1 4, 8%Z)].
Definition call3 := XMulti (ISingle sp3) "unc" "sig" "ch" 1%Z true Average true None kwm.
Definition all6 : list (string * list Z) :=
  [("unc_down_0", [0; 0]%Z); ("unc_down_1", [0; 0]%Z); ("unc_down_2", [0; 7]%Z);
   ("unc_up_0", [4; 5]%Z); ("unc_up_1", [0; 0]%Z); ("unc_up_2", [0; 0]%Z)].
Example ex_batched : xprobe (xfile false (one_chan false ++ [call3])) content = Some all6 /\
                     xprobe (xfile true (one_chan true ++ [call3])) content = Some all6.
Proof. vm_compute. split; reflexivity. Qed.
Example ex_hypotheses : Forall (xwf chax) (one_chan true ++ [call3]) /\ Forall (chaxes_ok chax) (one_chan true ++ [call3]) /\
  NoDup (xchans (one_chan true ++ [call3])).
Proof.
  split; [|split].
  - apply Forall_app. split; [unfold one_chan; repeat constructor; cbn; try lia; try discriminate|]. constructor; [|constructor].
    cbn [xwf call3]. change (mextra chax (ISingle sp3) "ch" None) with ["s"; "t"]. cbn [andb]. split.
    + split; [repeat constructor; cbn; intuition discriminate|]. split; [|repeat constructor; vm_compute; lia].
      repeat constructor; vm_compute; intuition discriminate.
    + split.
      * repeat constructor; cbn; intuition discriminate.
      * repeat constructor; cbn; intuition discriminate.
      * repeat constructor; cbn; intuition discriminate.
      * intros n. cbn. intuition congruence.
      * intros n. cbn. intuition congruence.
      * intros a c A C. cbn in A, C. destruct A as [<-|[<-|[<-|[]]]], C as [<-|[]]; cbn; try discriminate; intros _; repeat split.
  - repeat constructor.
  - repeat constructor. intros [].
Qed.
(** the same content as a dense histogram, looped *)
Definition dn3 : mhist Z := MDense [ax_s; ax_x; ax_t] (fun m => mh_at sp3 m).
Example ex_loop : xprobe (xfile false (one_chan false ++ [XMulti (ISingle dn3) "unc" "sig" "ch" 1%Z true Average true None kwm])) content = Some all6.
Proof. vm_compute. reflexivity. Qed.
(** the single calls for the slices *)
Definition single3 (s : string) (v : list Z) : xop Z := XOne (AddSystematic (SSingle (HDense v v)) s "sig" "ch" 1%Z true Average true kwm).
Example ex_singles : xprobe (xfile false (one_chan false ++ map (fun sv => single3 (fst sv) (snd sv)) all6)) content = Some all6.
Proof. vm_compute. reflexivity. Qed.
Example ex_names : batch_names "unc" [ax_s; ax_t] = ["unc_up_0"; "unc_up_1"; "unc_up_2"; "unc_down_0"; "unc_down_1"; "unc_down_2"] /\
  Forall clean_axis [ax_s; ax_t].
Proof. split; [reflexivity|]. constructor; [|constructor; [exact I|constructor]]. repeat split; try (repeat constructor; cbn; intuition discriminate).
  repeat constructor; intros H; cbn in H; intuition discriminate. Qed.
Example ex_bad_axes : detect_extra ["x"] ["s"; "x"] (Some ["q"]) = Raise RuntimeError /\ detect_extra ["x"] ["s"; "x"] (Some ["x"]) = Raise RuntimeError.
Proof. split; reflexivity. Qed.
Example ex_edges : xfile false (one_chan false ++ [XMulti (ISingle (MDense [mkMx "x" 2 1 1 9 None] (fun _ => 1%Z))) "u" "sig" "ch" 1%Z true Average true None kwm]) = Raise RuntimeError.
Proof. reflexivity. Qed.

(** ** where the code falls short of the property *)
(** the loop takes the remaining axes in the order of the histogram and compares only edges:
    with two channel axes of equal binning a histogram that has them swapped is booked
    transposed, while the batched path reads the same histogram by axis name *)
Definition ay (n : string) := mkMx n 2 0 0 1 None.
Definition ax_q := mkMx "q" 1 0 0 3 None.
Definition chax2 (n : string) : list maxis := [ay "x"; ay "y"].
Definition two_axes : list (xop Z) :=
  [ XOne (AddChannel (Some "ch") [(2, 2); (2, 2)] false false);
    XOne (AddProcess (HDense [10; 10; 10; 10]%Z [1; 1; 1; 1]%Z) "sig" "ch" true None);
    XOne (AddData "ch" [9; 9; 9; 9]%Z [9; 9; 9; 9]%Z) ].
Definition xfile2 (l : list (xop Z)) : result (workspace Z) :=
  st <- xrun srt (mkCfg false Normal false) chax2 init_state l ;; write (mkCfg false Normal false) st.
Definition content2 (w : workspace Z) : list (string * list Z) :=
  map (fun k => (nth k (w_systs w) "", map (fun b => view_logk (w_tensors w) b 0 k) [0; 1; 2; 3])) (seq 0 (List.length (w_systs w))).
(** axes y, x, q; the only non-zero bin is y = 0, x = 1, which is bin 2 of the channel *)
Definition swapped : mhist Z := MDense [ay "y"; ay "x"; ax_q] (fun m => match m with [0; 1; _] => 5%Z | _ => 0%Z end).
Definition swapped_sparse : mhist Z := MSparse [ay "y"; ay "x"; ax_q] [(1, 5%Z)].
Theorem C13_axis_order_refuted :
  exists (h hs : mhist Z), (forall m, in_shape [2; 2; 1] m -> mh_at h m = mh_at hs m) /\ mh_axes h = mh_axes hs /\
    geom (mh_axes h) ["q"] (chax2 "ch") /\
    named_at h (fun n => if String.eqb n "x" then 1 else 0) = 5%Z /\
    xprobe (xfile2 (two_axes ++ [XMulti (ISingle h) "u" "sig" "ch" 1%Z true Average true None kwm])) content2 = Some [("u_0", [0; 5; 0; 0]%Z)] /\
    xprobe (xfile2 (two_axes ++ [XMulti (ISingle hs) "u" "sig" "ch" 1%Z true Average true None kwm])) content2 = Some [("u_0", [0; 0; 5; 0]%Z)].
Proof.
  exists swapped, swapped_sparse. split; [|split; [|split; [|split; [|split]]]]; try reflexivity.
  - intros m M. apply all_idx_In in M. cbn in M. repeat (destruct M as [<-|M]; [reflexivity|]). destruct M.
  - split.
    + repeat constructor; cbn; intuition discriminate.
    + repeat constructor; cbn; intuition discriminate.
    + repeat constructor; cbn; intuition discriminate.
    + intros n. cbn. intuition congruence.
    + intros n. cbn. intuition congruence.
    + intros a c A C. cbn in A, C. destruct A as [<-|[<-|[<-|[]]]], C as [<-|[<-|[]]]; cbn; try discriminate; intros _; repeat split.
Qed.
(** different bins can get the same name: the later one replaces the earlier one *)
Theorem C13_collision_refuted :
  exists (ax1 ax2 : maxis) (h : mhist Z), mh_axes h = [ax_x; ax1; ax2] /\
    spec_name "u" [ax1; ax2] [0; 1] = spec_name "u" [ax1; ax2] [1; 0] /\
    named_at h (fun n => if String.eqb n "x" then 1 else if String.eqb n "b" then 1 else 0) = 4%Z /\
    named_at h (fun n => if String.eqb n "x" then 1 else if String.eqb n "a" then 1 else 0) = 7%Z /\
    xprobe (xfile false (one_chan false ++ [XMulti (ISingle h) "u" "sig" "ch" 1%Z true Average true None kwm])) content =
    Some [("u_p_c", [0; 0]%Z); ("u_p_q_c", [7; 0]%Z); ("u_p_q_q_c", [0; 0]%Z)].
Proof.
  exists (mkMx "a" 2 0 0 1 (Some ["p"; "p_q"])), (mkMx "b" 2 0 0 1 (Some ["c"; "q_c"])),
    (MDense [ax_x; mkMx "a" 2 0 0 1 (Some ["p"; "p_q"]); mkMx "b" 2 0 0 1 (Some ["c"; "q_c"])]
       (fun m => match m with [1; 0; 1] => 4%Z | [1; 1; 0] => 7%Z | _ => 0%Z end)).
  split; [|split; [|split; [|split]]]; vm_compute; reflexivity.
Qed.
(** requested axes that leave another extra axis over: the batched path takes one of the entries
    of the remaining axis (here the last) for the content of the bin, the loop raises *)
Definition left_over : list (nat * Z) := [(ravel [3; 4; 5] [0; 1; 1], 4%Z); (ravel [3; 4; 5] [0; 1; 2], 7%Z)].
Theorem C13_left_over_axis_refuted :
  exists (h hd : mhist Z), mh_axes h = [ax_s; ax_x; ax_t] /\ mh_axes hd = mh_axes h /\ (forall m, in_shape [3; 4; 5] m -> mh_at h m = mh_at hd m) /\
    xprobe (xfile false (one_chan false ++ [XMulti (ISingle h) "u" "sig" "ch" 1%Z true Average true (Some ["s"]) kwm])) content = Some [("u_down", [0; 0]%Z); ("u_up", [7; 0]%Z)] /\
    exists e, xfile false (one_chan false ++ [XMulti (ISingle hd) "u" "sig" "ch" 1%Z true Average true (Some ["s"]) kwm]) = Raise e.
Proof.
  exists (MSparse [ax_s; ax_x; ax_t] left_over), (MDense [ax_s; ax_x; ax_t] (fun m => mh_at (MSparse [ax_s; ax_x; ax_t] left_over) m)).
  split; [reflexivity|]. split; [reflexivity|]. split; [reflexivity|]. split; [vm_compute; reflexivity|]. eexists. vm_compute. reflexivity.
Qed.
(** the batched path does not compare edges: a histogram that the loop rejects is booked *)
Definition ax_w := mkMx "x" 2 1 1 9 None.
Theorem C13_batched_edges_refuted :
  exists (h hd : mhist Z), mh_axes h = [ax_w; ax_s] /\ mh_axes hd = mh_axes h /\ x_tag ax_w <> x_tag ax_x /\
    xprobe (xfile false (one_chan false ++ [XMulti (ISingle h) "u" "sig" "ch" 1%Z true Average true None kwm])) content = Some [("u_down", [0; 0]%Z); ("u_up", [4; 0]%Z)] /\
    xfile false (one_chan false ++ [XMulti (ISingle hd) "u" "sig" "ch" 1%Z true Average true None kwm]) = Raise RuntimeError.
Proof.
  exists (MSparse [ax_w; ax_s] [(3, 4%Z)]), (MDense [ax_w; ax_s] (fun _ => 4%Z)).
  split; [reflexivity|]. split; [reflexivity|]. split; [discriminate|]. split; vm_compute; reflexivity.
Qed.
(** ... and with more bins than the channel the entries run past the end of the channel's
    template (IndexError), or, where they do not, into other bins *)
Theorem C13_batched_size_refuted :
  exists (h : mhist Z), mh_axes h = [mkMx "x" 2 0 0 1 None; mkMx "y" 3 0 0 1 None; ax_q] /\
    named_at h (fun n => if String.eqb n "x" then 1 else 0) = 5%Z /\
    xprobe (xfile2 (two_axes ++ [XMulti (ISingle h) "u" "sig" "ch" 1%Z true Average true None kwm])) content2 = Some [("u_0", [0; 0; 0; 5]%Z)].
Proof.
  exists (MSparse [mkMx "x" 2 0 0 1 None; mkMx "y" 3 0 0 1 None; ax_q] [(3, 5%Z)]).
  split; [reflexivity|]. split; [reflexivity|]. vm_compute. reflexivity.
Qed.
(** the single call for an empty slice of a SparseHist raises where the template is sparse and
    has entries; the batched path books it *)
Definition sparse_chan : list (xop Z) :=
  [ XOne (AddChannel (Some "ch") [(2, 4)] false false);
    XOne (AddProcess (HSparse [(0, 10%Z)] 2) "sig" "ch" true None);
    XOne (AddData "ch" [9; 22]%Z [9; 22]%Z) ].
Theorem C13_empty_slice_refuted :
  exists (h : mhist Z) (slices : list (xop Z)),
    slices = [XOne (AddSystematic (SSingle (HSparse [(0, 4%Z)] 2)) "u_up" "sig" "ch" 1%Z true Average true kwm);
              XOne (AddSystematic (SSingle (HSparse [] 2)) "u_down" "sig" "ch" 1%Z true Average true kwm)] /\
    xprobe (xfile true (sparse_chan ++ [XMulti (ISingle h) "u" "sig" "ch" 1%Z true Average true None kwm])) content = Some [("u_down", [0; 0]%Z); ("u_up", [4; 0]%Z)] /\
    xfile true (sparse_chan ++ slices) = Raise IndexError.
Proof.
  exists (MSparse [ax_x; ax_s] [(3, 4%Z)]). eexists. split; [reflexivity|]. split; vm_compute; reflexivity.
Qed.
Print Assumptions C13_written.
Print Assumptions C13_loop.
Print Assumptions C13_no_extra.
Print Assumptions C13_extra_axes.
Print Assumptions C13_bad_axes.
Print Assumptions C13_edges.
Print Assumptions C13_names.
Print Assumptions C13_axis_order_refuted.
Print Assumptions C13_collision_refuted.
Print Assumptions C13_left_over_axis_refuted.
Print Assumptions C13_batched_edges_refuted.
Print Assumptions C13_batched_size_refuted.
Print Assumptions C13_empty_slice_refuted.
