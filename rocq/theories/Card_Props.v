(** C58: conversion of combine datacards. *)
From Coq Require Import List Arith Bool String Ascii ZArith Lia Reals Lra.
From Verif Require Import PyList PyDict ListUtil Num RBase Names_Model Writer_Model Writer_Spec Writer_Layout Writer_Meta Writer_Inv
  Writer_State Writer_Tensor Writer_Hist Writer_Denote Writer_Master Writer_Effects Writer_Props
  Card_Model Card_Spec Card_Parse Card_Convert Card_Proof Card_Effects Card_Text.
From Verif Require Parse_Model.
Import ListNotations.
Local Open Scope nat_scope.
Local Open Scope string_scope.
Local Open Scope list_scope.

(** [w] is the workspace text2hdf5 makes of lines laid out as the card [A] *)
Definition converted {V} {NV : Num V} (pyfloat : string -> option V) (exists_file : string -> bool)
    (files : string -> string -> option (thist V)) (mass : string) (k101 : V) (symm : symmode) (cfg : config)
    (A : acard) (w : workspace V) : Prop :=
  wf_card pyfloat exists_file A /\ tidy A /\
  (forall f n h, files f n = Some h -> List.length (th_vars h) = List.length (th_vals h)) /\
  exists lines, laid_out A lines /\ text2hdf5 pyfloat exists_file files mass k101 symm cfg lines = Ok w.

Lemma converted_inv {V} {NV : Num V} pyfloat exists_file files mass k101 symm cfg A (w : workspace V) :
  converted pyfloat exists_file files mass k101 symm cfg A w ->
  wf_card pyfloat exists_file A /\ tidy A /\ (forall f n h, files f n = Some h -> List.length (th_vars h) = List.length (th_vals h)) /\
  exists c ops, parsed_as pyfloat A c /\ convert pyfloat files mass k101 symm c = (ops, None) /\ written cfg ops w.
Proof.
  intros (W & T & F & lines & L & E). split; auto. split; auto. split; auto. destruct (parsed pyfloat exists_file A lines L W) as (c & PC & P).
  exists c, (fst (convert pyfloat files mass k101 symm c)). split; auto. unfold text2hdf5 in E. rewrite PC in E. cbn [rbind] in E.
  destruct (run cfg init_state (fst (convert pyfloat files mass k101 symm c))) as [st|x] eqn:R; [|discriminate]. cbn [rbind] in E.
  destruct (snd (convert pyfloat files mass k101 symm c)) as [x|] eqn:S; [discriminate|]. split.
  - destruct (convert pyfloat files mass k101 symm c); cbn in *. congruence.
  - exists st. auto.
Qed.

(** ** text *)
Theorem C58_text : forall (txt : list Parse_Model.text) (ls : list (list string)), txt <> [] ->
  Forall (fun t => ~ In newline t) txt -> Forall2 (fun t l => spaced t (map Parse_Model.T l)) txt ls ->
  read_card (Parse_Model.S_ (Parse_Model.join newline txt)) =
    filter (fun l => match l with [] => false | w :: _ => negb (String.prefix "#" w) end) ls.
Proof. exact read_lines. Qed.
Theorem C58_parsed : forall (V : Type) (pyfloat : string -> option V) (exists_file : string -> bool) (A : acard) (lines : list line),
  laid_out A lines -> wf_card pyfloat exists_file A -> exists c, parse pyfloat exists_file lines = Ok c /\ parsed_as pyfloat A c.
Proof. exact @parsed. Qed.
Theorem C58_names : forall mass s p b l, dollar_free p -> dollar_free b -> dollar_free mass -> literal l ->
  (forall y, sh_syst s = Some (pattern l) -> dollar_free y -> hist_name mass s p b (Some y) = filled (values mass p b y) l) /\
  (sh_pat s = pattern l -> (forall v, In (Var v) l -> v <> VSystematic) ->
     hist_name mass s p b None = filled (values mass p b "") l /\
     (forall y, sh_syst s = None -> hist_name mass s p b (Some y) = (filled (values mass p b "") l ++ "_" ++ y)%string)).
Proof. intros. split; intros; [apply hist_name_syst|apply hist_name_nominal]; auto. Qed.

(** ** workspace *)
Section C58.
  Context {V : Type} {NV : Num V} {NL : NumLaws V}.
  Variables (pyfloat : string -> option V) (exists_file : string -> bool) (files : string -> string -> option (thist V)) (mass : string)
            (k101 : V) (symm : symmode) (cfg : config) (A : acard) (w : workspace V).
  Hypothesis C : converted pyfloat exists_file files mass k101 symm cfg A w.

  (** channels, with the size of the histogram of the data, in the order of the card *)
  Theorem C58_channels :
    (forall b, In b (map fst (reader_ranges 0 (w_channels w))) <-> In b (chans A)) /\
    (forall b s e, In (b, (s, e)) (reader_ranges 0 (w_channels w)) -> exists h, template pyfloat files mass A b "data_obs" = Some h /\
       e = s + axes_size (th_axes h) false) /\
    NoDup (map fst (reader_ranges 0 (w_channels w))) /\ tiles 0 (w_nbinsfull w) (reader_ranges 0 (w_channels w)).
  Proof using C.
    destruct (converted_inv _ _ _ _ _ _ _ _ _ C) as (W & T & F & c & ops & P & CV & Wr).
    destruct (ws_channels pyfloat exists_file files mass k101 symm cfg A c ops w W P T F CV Wr) as (A1 & A2 & A3 & A4). repeat split; auto.
    - apply A1.
    - apply A1.
    - intros b s e H. destruct (decompose pyfloat exists_file files mass k101 symm A c ops W P CV) as (sy & _ & _ & D & _).
      assert (B : In b (chans A)) by (apply A1, in_map_iff; exists (b, (s, e)); auto). specialize (D b B).
      destruct (template pyfloat files mass A b "data_obs") as [h|] eqn:E; [|contradiction]. exists h. split; auto.
      rewrite (A2 b s e H). unfold size_of, th. rewrite E. auto.
  Qed.
  (** processes, and signals by their index *)
  Theorem C58_processes :
    (forall p, In p (w_procs w) <-> exists k, In k (ac_cols A) /\ co_proc k = p) /\
    (forall p, In p (w_signals w) <-> exists k z, In k (ac_cols A) /\ co_proc k = p /\ pyint (co_idx k) = Some z /\ (z <= 0)%Z).
  Proof using C.
    destruct (converted_inv _ _ _ _ _ _ _ _ _ C) as (W & T & F & c & ops & P & CV & Wr).
    apply (ws_processes pyfloat exists_file files mass k101 symm cfg A c ops w W P CV Wr).
  Qed.
  Theorem C58_data : forall b s e i h, In (b, (s, e)) (reader_ranges 0 (w_channels w)) -> i < e - s ->
    template pyfloat files mass A b "data_obs" = Some h -> w_data_obs w (s + i) = nth i (th_vals h) n0.
  Proof using C.
    destruct (converted_inv _ _ _ _ _ _ _ _ _ C) as (W & T & F & c & ops & P & CV & Wr).
    apply (ws_data pyfloat exists_file files mass k101 symm cfg A c ops w W P T F CV Wr).
  Qed.
  (** a column holds its histogram, other pairs of channel and process nothing *)
  Theorem C58_template : forall b p i r ip, at_point w b p i r ip ->
    (forall k h, In k (ac_cols A) -> co_key k = (b, p) -> template pyfloat files mass A b p = Some h ->
       view_norm (w_tensors w) r ip = spec_clip (c_allowneg cfg) (nth i (th_vals h) n0) /\
       w_sumw w r ip = spec_clip (c_allowneg cfg) (nth i (th_vals h) n0) /\ w_sumw2 w r ip = nth i (th_vars h) n0) /\
    ((forall k, In k (ac_cols A) -> co_key k <> (b, p)) -> view_norm (w_tensors w) r ip = n0).
  Proof using C NL.
    intros b p i r ip AP. destruct (converted_inv _ _ _ _ _ _ _ _ _ C) as (W & T & F & c & ops & P & CV & Wr). split.
    - intros k h K E H. apply (ws_template pyfloat exists_file files mass k101 symm cfg A c ops w W P T F CV Wr b p h i r ip); eauto.
    - intros N. apply (ws_unbooked pyfloat exists_file files mass k101 symm cfg A c ops w W P T F CV Wr b p i r ip AP N).
  Qed.
  (** the histograms exist *)
  Theorem C58_found : (forall b, In b (chans A) -> template pyfloat files mass A b "data_obs" <> None) /\
    (forall k, In k (ac_cols A) -> template pyfloat files mass A (co_bin k) (co_proc k) <> None).
  Proof using C.
    destruct (converted_inv _ _ _ _ _ _ _ _ _ C) as (W & T & F & c & ops & P & CV & Wr).
    destruct (decompose pyfloat exists_file files mass k101 symm A c ops W P CV) as (sy & _ & _ & D). exact D.
  Qed.
  (** nuisances, and which of them are constrained *)
  Theorem C58_nuisances :
    NoDup (w_systs w) /\
    (forall n, In n (w_systs w) <-> (exists r, In r (ac_rates A) /\ acts A r /\ n = rl_name r) \/
                                    (exists s, In s (ac_systs A) /\ syst_nuisance files mass symm A s n)) /\
    (forall k r, In r (ac_rates A) -> nth_error (w_systs w) k = Some (rl_name r) -> nth_error (w_cw w) k = Some n0) /\
    (forall k s n, In s (ac_systs A) -> syst_nuisance files mass symm A s n -> nth_error (w_systs w) k = Some n ->
       nth_error (w_cw w) k = Some (if String.eqb (sl_type s) "shapeU" then n0 else n1)) /\
    (forall k, ~ In k (w_noiidxs w)).
  Proof using C.
    destruct (converted_inv _ _ _ _ _ _ _ _ _ C) as (W & T & F & c & ops & P & CV & Wr).
    apply (ws_nuisances pyfloat exists_file files mass k101 symm cfg A c ops w W P T CV Wr).
  Qed.
  (** a systematic does nothing where the card has "-" or "0" *)
  Theorem C58_no_entry : forall b p i r ip s k n, at_point w b p i r ip -> In s (ac_systs A) -> nuisance_of s n ->
    nth_error (w_systs w) k = Some n -> (forall e, ~ entry A s b p e) ->
    view_logk (w_tensors w) r ip k = n0 /\ (w_symmetric w = false -> view_logk (w_tensors w) r ip (List.length (w_systs w) + k) = n0).
  Proof using C NL.
    destruct (converted_inv _ _ _ _ _ _ _ _ _ C) as (W & T & F & c & ops & P & CV & Wr).
    apply (ws_no_entry pyfloat exists_file files mass k101 symm cfg A c ops w W P T F CV Wr).
  Qed.
End C58.

Section C58R.
  Variables (pyfloat : string -> option R) (exists_file : string -> bool) (files : string -> string -> option (thist R)) (mass : string)
            (k101 : R) (symm : symmode) (cfg : config) (A : acard) (w : workspace R).
  Hypothesis C : converted pyfloat exists_file files mass k101 symm cfg A w.
  Variables (b p : string) (i r ip : nat) (h : thist R).
  Hypothesis AP : at_point w b p i r ip.
  Hypothesis TP : template pyfloat files mass A b p = Some h.
  Let nom := spec_clip (c_allowneg cfg) (nth i (th_vals h) 0%R).
  Hypothesis NZ : nom <> 0%R.

  (** entry "x": a factor x for one standard deviation *)
  Theorem C58_norm : forall s e k x, In s (ac_systs A) -> entry A s b p e -> norm_like files mass A s b p -> nth_error (w_systs w) k = Some (sl_name s) ->
    factor pyfloat e (UScalar x) -> (0 < x)%R ->
    view_logk (w_tensors w) r ip k = match c_type cfg with LogNormal => ln x | Normal => (nom * (x - 1))%R end.
  Proof using C AP TP NZ.
    destruct (converted_inv _ _ _ _ _ _ _ _ _ C) as (W & T & F & c & ops & P & CV & Wr).
    apply (ws_norm pyfloat exists_file files mass k101 symm cfg A c ops w W P T F CV Wr b p i r ip AP h TP NZ).
  Qed.
  (** entry "down/up": the average of the logarithms *)
  Theorem C58_norm_pair : forall s e k x y, In s (ac_systs A) -> entry A s b p e -> norm_like files mass A s b p -> nth_error (w_systs w) k = Some (sl_name s) ->
    factor pyfloat e (UPair x y) -> (0 < x)%R -> (0 < y)%R ->
    view_logk (w_tensors w) r ip k = match c_type cfg with LogNormal => ((ln x - ln y) / 2)%R | Normal => (nom * (x - y) / 2)%R end.
  Proof using C AP TP NZ.
    destruct (converted_inv _ _ _ _ _ _ _ _ _ C) as (W & T & F & c & ops & P & CV & Wr).
    apply (ws_norm_pair pyfloat exists_file files mass k101 symm cfg A c ops w W P T F CV Wr b p i r ip AP h TP NZ).
  Qed.
  (** varied histograms, for every way of symmetrising them *)
  Theorem C58_shape : forall s e kf u d, In s (ac_systs A) -> entry A s b p e -> shape_type (sl_type s) ->
    varied files mass A b p (sl_name s ++ "Up") = Some u -> varied files mass A b p (sl_name s ++ "Down") = Some d -> pyfloat e = Some kf ->
    let U := spec_logk (c_type cfg) kf (nth i (th_vals u) 0%R) nom in
    let D := spec_logk (c_type cfg) kf (nth i (th_vals d) 0%R) nom in
    let at_ k := view_logk (w_tensors w) r ip k in
    match symm with
    | NoSym => forall k, nth_error (w_systs w) k = Some (sl_name s) ->
        let h := at_ (List.length (w_systs w) + k) in w_symmetric w = false /\ (at_ k + h = U)%R /\ (h - at_ k = D)%R
    | Average => forall k, nth_error (w_systs w) k = Some (sl_name s) -> at_ k = ((U - D) / 2)%R
    | Conservative => forall k, nth_error (w_systs w) k = Some (sl_name s) ->
        (at_ k = U \/ at_ k = (- D)%R) /\ (Rabs U <= Rabs (at_ k))%R /\ (Rabs D <= Rabs (at_ k))%R
    | Linear => forall k1 k2, nth_error (w_systs w) k1 = Some (sl_name s ++ "SymAvg")%string -> nth_error (w_systs w) k2 = Some (sl_name s ++ "SymDiff")%string ->
        (at_ k1 + at_ k2 = U /\ at_ k2 - at_ k1 = D)%R
    | Quadratic => forall k1 k2, nth_error (w_systs w) k1 = Some (sl_name s ++ "SymAvg")%string -> nth_error (w_systs w) k2 = Some (sl_name s ++ "SymDiff")%string ->
        (at_ k1 + at_ k2 / sqrt 3 = U /\ at_ k2 / sqrt 3 - at_ k1 = D)%R
    end.
  Proof using C AP TP NZ.
    destruct (converted_inv _ _ _ _ _ _ _ _ _ C) as (W & T & F & c & ops & P & CV & Wr).
    apply (ws_shape pyfloat exists_file files mass k101 symm cfg A c ops w W P T F CV Wr b p i r ip AP h TP NZ).
  Qed.
  (** rate parameters become unconstrained factors of one percent per unit on the columns they reach, and nothing elsewhere *)
  Theorem C58_rateparam : forall n k, (exists q, In q (ac_rates A) /\ rl_name q = n) -> nth_error (w_systs w) k = Some n -> (0 < k101)%R ->
    (exists kc, In kc (ac_cols A) /\ co_key kc = (b, p)) ->
    ((exists q, In q (ac_rates A) /\ rl_name q = n /\ reaches A q b p) ->
       view_logk (w_tensors w) r ip k = match c_type cfg with LogNormal => ln k101 | Normal => (nom * (k101 - 1))%R end) /\
    (~ (exists q, In q (ac_rates A) /\ rl_name q = n /\ reaches A q b p) -> view_logk (w_tensors w) r ip k = 0%R).
  Proof using C AP TP NZ.
    destruct (converted_inv _ _ _ _ _ _ _ _ _ C) as (W & T & F & c & ops & P & CV & Wr).
    apply (ws_rate pyfloat exists_file files mass k101 symm cfg A c ops w W P T F CV Wr b p i r ip AP h TP NZ).
  Qed.
End C58R.

(** ** a card with a shape channel and a counting channel *)
#[local] Existing Instance Num_Z.
Definition zfloat (s : string) : option Z := pyint s.
Definition shapes_zero (a : list (string * (list Z * list Z))) (n : string) : option (thist Z) :=
  option_map (fun vv => mkTH [(2, 2)] (fst vv) (snd vv)) (dget n a).
Definition ex_file (f n : string) : option (thist Z) :=
  if String.eqb f "f.root" then
    shapes_zero [("data_obs", ([10; 12], [10; 12])%Z); ("sig", ([2; 3], [1; 1])%Z); ("bkg", ([8; 9], [2; 2])%Z);
                 ("sig_tiltUp", ([4; 3], [1; 1])%Z); ("sig_tiltDown", ([1; 9], [1; 1])%Z);
                 ("tt_m125", ([5; 5], [1; 1])%Z); ("data_obs_m125", ([6; 6], [1; 1])%Z)] n
  else if String.eqb f "g.root" then shapes_zero [("sig", ([7; 7], [1; 1])%Z)] n else None.
Definition ex_exists (f : string) : bool := smem f ["f.root"; "g.root"].
Definition ex_convert (content : string) : result (workspace Z) :=
  text2hdf5 zfloat ex_exists ex_file "125" 101%Z NoSym (ex_cfg false) (read_card content).

Definition ex_text : string :=
"# an example
imax 2 number of channels
jmax 1
kmax *
---------------
shapes  *  ch1  f.root $PROCESS $PROCESS_$SYSTEMATIC
---------------
bin          ch1  ch2
observation  22   7
---------------
bin          ch1  ch1 ch2
process      sig  bkg sig
process      0    1   0
rate         5    17  4
---------------
lumi  lnN    3    2/4   2
tilt  shape  1    -   -

free  rateParam ch1 bkg 1
".
Definition ex_card : acard := mkAc [("ch1", "22"); ("ch2", "7")]
  [mkCol "ch1" "sig" "0" "5"; mkCol "ch1" "bkg" "1" "17"; mkCol "ch2" "sig" "0" "4"]
  [mkShape "*" "ch1" "f.root" "$PROCESS" (Some "$PROCESS_$SYSTEMATIC")]
  [mkSl "lumi" "lnN" [] ["3"; "2/4"; "2"]; mkSl "tilt" "shape" [] ["1"; "-"; "-"]]
  [mkRl "free" "ch1" "bkg" "1" []].
Example C58_example_text : exists l, read_card ex_text = l /\ List.length l = 17 /\ laid_out ex_card l.
Proof.
  eexists. split; [vm_compute; reflexivity|]. split; [reflexivity|].
  exists [["imax"; "2"; "number"; "of"; "channels"]; ["jmax"; "1"]; ["kmax"; "*"]; ["---------------"];
          ["shapes"; "*"; "ch1"; "f.root"; "$PROCESS"; "$PROCESS_$SYSTEMATIC"]; ["---------------"]; ["bin"; "ch1"; "ch2"];
          ["observation"; "22"; "7"]; ["---------------"]],
         [["---------------"]; ["lumi"; "lnN"; "3"; "2/4"; "2"]; ["tilt"; "shape"; "1"; "-"; "-"]], [["free"; "rateParam"; "ch1"; "bkg"; "1"]].
  split; [reflexivity|]. split; [reflexivity|]. split; [reflexivity|]. split; [repeat constructor|]. split; [repeat constructor|].
  split; [reflexivity|]. split; [repeat constructor|]. split; [reflexivity|]. split; [reflexivity|].
  repeat constructor; cbn; intros; try lia; intuition discriminate.
Qed.
Ltac cases H := cbn in H; repeat match type of H with _ \/ _ => destruct H as [H|H] end; try contradiction; try subst.
Example C58_example_wf : wf_card zfloat ex_exists ex_card /\ tidy ex_card.
Proof.
  split; split.
  - repeat constructor; cbn; intuition discriminate.
  - intros b t H. cases H; injection H as <- <-; eexists; reflexivity.
  - repeat constructor; cbn; intuition discriminate.
  - intros k H. cases H; eexists; reflexivity.
  - intros k H. cases H; eexists; reflexivity.
  - intros k k' H H' E. cases H; cases H'; reflexivity || discriminate.
  - intros b. split.
    + intros H. cases H; [exists (mkCol "ch1" "sig" "0" "5")|exists (mkCol "ch2" "sig" "0" "4")]; cbn; auto.
    + intros (k & H & <-). cases H; cbn; auto.
  - intros k H. cases H; repeat split; discriminate.
  - intros k H. cases H; reflexivity.
  - intros k H. cases H; repeat split; intros; try discriminate; auto.
  - repeat constructor; cbn; intuition discriminate.
  - intros k q H H'. cases H; cases H'; discriminate.
  - intros k q H H'. cases H; cases H'; split; discriminate.
  - intros k q H H'. cases H; cases H'; split; discriminate.
  - intros k b p e H. cases H; discriminate.
Qed.
Example C58_example : exists w, ex_convert ex_text = Ok w /\
  w_procs w = ["sig"; "bkg"] /\ w_signals w = ["sig"] /\ reader_ranges 0 (w_channels w) = [("ch1", (0, 2)); ("ch2", (2, 3))] /\
  map (w_data_obs w) (seq 0 3) = [10; 12; 7]%Z /\
  table 3 2 (view_norm (w_tensors w)) = [[2; 8]; [3; 9]; [7; 0]]%Z /\
  w_systs w = ["free"; "lumi"; "tilt"] /\ w_cw w = [0; 1; 1]%Z /\ w_symmetric w = false /\
  map (view_logk (w_tensors w) 0 0) [0; 1; 2; 5] = [0; 2; 2; 0]%Z /\ map (view_logk (w_tensors w) 0 1) [0; 1; 2; 5] = [100; 2; 0; 0]%Z /\
  map (view_logk (w_tensors w) 2 0) [0; 1; 2; 5] = [0; 1; 0; 0]%Z.
Proof.
  probing (fun w : workspace Z => (w_procs w, w_signals w, reader_ranges 0 (w_channels w), map (w_data_obs w) (seq 0 3), table 3 2 (view_norm (w_tensors w)),
     w_systs w, w_cw w, w_symmetric w, map (view_logk (w_tensors w) 0 0) [0; 1; 2; 5], map (view_logk (w_tensors w) 0 1) [0; 1; 2; 5], map (view_logk (w_tensors w) 2 0) [0; 1; 2; 5])).
  repeat split; auto.
Qed.

(** ** where the conversion departs from the card *)
Definition counting_card (obs rate extra : string) : string :=
("imax 1
jmax 1
kmax *
bin          a
observation  " ++ obs ++ "
bin          a    a
process      sig  bkg
process      0    1
rate         " ++ rate ++ "
" ++ extra)%string.
(** The yields of a counting channel are not the rates: every process gets the observation. *)
Theorem C58_rate_refuted : exists w, ex_convert (counting_card "9" "2 5" "") = Ok w /\
  table 1 2 (view_norm (w_tensors w)) = [[9; 9]]%Z.
Proof. probing (fun w : workspace Z => table 1 2 (view_norm (w_tensors w))). auto. Qed.
(** Nor does the rate line matter with histograms: they are not scaled to it, and -1 is not needed. *)
Definition shape_card (rate extra : string) : string :=
("imax 1
shapes * a f.root $PROCESS $PROCESS_$SYSTEMATIC
bin          a
observation  22
bin          a    a
process      sig  bkg
process      0    1
rate         " ++ rate ++ "
" ++ extra)%string.
Theorem C58_shape_rate_refuted : exists w w', ex_convert (shape_card "5 17" "") = Ok w /\ ex_convert (shape_card "50 1" "") = Ok w' /\
  table 2 2 (view_norm (w_tensors w)) = [[2; 8]; [3; 9]]%Z /\ table 2 2 (view_norm (w_tensors w')) = [[2; 8]; [3; 9]]%Z.
Proof.
  assert (H : forall r, r = "5 17" \/ r = "50 1" -> exists w, ex_convert (shape_card r "") = Ok w /\ table 2 2 (view_norm (w_tensors w)) = [[2; 8]; [3; 9]]%Z).
  { intros r [-> | ->]; probing (fun w : workspace Z => table 2 2 (view_norm (w_tensors w))); auto. }
  destruct (H "5 17") as (w & E & F); auto. destruct (H "50 1") as (w' & E' & F'); auto. exists w, w'. auto.
Qed.
(** The order of the lines matters: systematics below a rateParam, param, group or nuisance line are dropped. *)
Theorem C58_order_refuted : exists w w',
  ex_convert (counting_card "9" "2 5" "lumi lnN 2 2
free rateParam a bkg 1") = Ok w /\
  ex_convert (counting_card "9" "2 5" "free rateParam a bkg 1
lumi lnN 2 2") = Ok w' /\ w_systs w = ["free"; "lumi"] /\ w_systs w' = ["free"].
Proof.
  assert (H1 : exists w, ex_convert (counting_card "9" "2 5" "lumi lnN 2 2
free rateParam a bkg 1") = Ok w /\ w_systs w = ["free"; "lumi"]) by (probing (fun w : workspace Z => w_systs w); auto).
  assert (H2 : exists w, ex_convert (counting_card "9" "2 5" "free rateParam a bkg 1
lumi lnN 2 2") = Ok w /\ w_systs w = ["free"]) by (probing (fun w : workspace Z => w_systs w); auto).
  destruct H1 as (w & E & F), H2 as (w' & E' & F'). exists w, w'. auto.
Qed.
(** A rateParam for all processes acts on the first one only. *)
Theorem C58_star_refuted : exists w, ex_convert (counting_card "9" "2 5" "free rateParam a * 1") = Ok w /\
  w_systs w = ["free"] /\ view_logk (w_tensors w) 0 0 0 = 100%Z /\ view_logk (w_tensors w) 0 1 0 = 0%Z.
Proof. probing (fun w : workspace Z => (w_systs w, view_logk (w_tensors w) 0 0 0, view_logk (w_tensors w) 0 1 0)). auto. Qed.
(** Gamma systematics are read and then ignored. *)
Theorem C58_gamma_refuted : exists w, ex_convert (counting_card "9" "2 5" "stat gmN 4 - 1") = Ok w /\ w_systs w = [].
Proof. probing (fun w : workspace Z => w_systs w). auto. Qed.
(** lnU is constrained like lnN, and shapeU in a counting channel too. *)
Theorem C58_lnU_refuted : exists w, ex_convert (counting_card "9" "2 5" "u lnU 2 2
v shapeU 2 2") = Ok w /\ w_systs w = ["u"; "v"] /\ w_cw w = [1; 1]%Z /\ w_noconstraint w = [].
Proof. probing (fun w : workspace Z => (w_systs w, w_cw w, w_noconstraint w)). auto. Qed.
(** Groups are read and then ignored: every nuisance is its own group. *)
Theorem C58_group_refuted : exists w, ex_convert (counting_card "9" "2 5" "x lnN 2 2
y lnN 2 3
both group = x y") = Ok w /\ map fst (w_groups w) = ["x"; "y"].
Proof. probing (fun w : workspace Z => map fst (w_groups w)). auto. Qed.
(** A systematic with fewer entries than there are columns affects nothing, without an error. *)
Theorem C58_short_line_refuted : exists w, ex_convert (counting_card "9" "2 5" "x lnN 2") = Ok w /\ w_systs w = [].
Proof. probing (fun w : workspace Z => w_systs w). auto. Qed.
(** A shapes line with wildcards overrides a specific line above it. *)
Theorem C58_wildcard_refuted : exists w, ex_convert
"shapes sig a g.root $PROCESS
shapes * a f.root $PROCESS
bin          a
observation  22
bin          a    a
process      sig  bkg
process      0    1
rate         5 17" = Ok w /\ table 2 2 (view_norm (w_tensors w)) = [[2; 8]; [3; 9]]%Z.
Proof. probing (fun w : workspace Z => table 2 2 (view_norm (w_tensors w))). auto. Qed.
(** Process indices above process names are rejected. *)
Theorem C58_index_first_refuted : ex_convert
"bin          a
observation  22
bin          a    a
process      0    1
process      sig  bkg
rate         5 17" = Raise ValueError.
Proof. vm_compute. reflexivity. Qed.
(** A systematic whose name starts with "shapes" is taken for a shapes line (with three columns or more). *)
Theorem C58_shapes_name_refuted : forall name, name = "shapesys" \/ name = "sys_shape" ->
  (exists w, ex_convert ("bin          a
observation  22
bin          a    a    a
process      sig  bkg  qcd
process      0    1    2
rate         5 17 3
" ++ name ++ " lnN 2 2 2")%string = Ok w) <-> name = "sys_shape".
Proof.
  intros name [-> | ->]; split.
  - intros (w & E). vm_compute in E. discriminate.
  - discriminate.
  - auto.
  - intros _. match goal with |- exists w, ?r = Ok w => destruct (probe_ok r (fun _ => true) true) as (w & E & _) end; [vm_compute; reflexivity|eauto].
Qed.
(** With the four lines of the columns above the observations, their bin line is taken for the list of channels. *)
Theorem C58_block_first_refuted : exists e, ex_convert
"bin          a    a
process      sig  bkg
process      0    1
rate         5 17
bin          a
observation  22
" = Raise e.
Proof. eexists. vm_compute. reflexivity. Qed.
(** A process without a number, because the line of numbers is short, is booked as signal. *)
Theorem C58_short_numbers_refuted : exists w, ex_convert
"bin          a
observation  22
bin          a    a
process      sig  bkg
process      0
rate         5 17" = Ok w /\ w_signals w = ["bkg"; "sig"].
Proof. probing (fun w : workspace Z => w_signals w). auto. Qed.
(** A file that ends after the names of the processes gives a workspace without channels or an error. *)
Theorem C58_truncated_refuted : ex_convert
"observation  22
bin          a
process      sig" = Raise KeyError.
Proof. vm_compute. reflexivity. Qed.
Print Assumptions C58_text.
Print Assumptions C58_parsed.
Print Assumptions C58_names.
Print Assumptions C58_channels.
Print Assumptions C58_processes.
Print Assumptions C58_data.
Print Assumptions C58_template.
Print Assumptions C58_found.
Print Assumptions C58_nuisances.
Print Assumptions C58_no_entry.
Print Assumptions C58_norm.
Print Assumptions C58_norm_pair.
Print Assumptions C58_shape.
Print Assumptions C58_rateparam.
Print Assumptions C58_rate_refuted.
Print Assumptions C58_shape_rate_refuted.
Print Assumptions C58_order_refuted.
Print Assumptions C58_star_refuted.
Print Assumptions C58_gamma_refuted.
Print Assumptions C58_lnU_refuted.
Print Assumptions C58_group_refuted.
Print Assumptions C58_short_line_refuted.
Print Assumptions C58_wildcard_refuted.
Print Assumptions C58_index_first_refuted.
Print Assumptions C58_shapes_name_refuted.
Print Assumptions C58_block_first_refuted.
Print Assumptions C58_short_numbers_refuted.
Print Assumptions C58_truncated_refuted.
