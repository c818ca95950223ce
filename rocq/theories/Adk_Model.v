(** ADK parameters of the ionizer: particles/elementary_process/ionization/{ionizer,read_atomic_data}.py. Exact arithmetic. *)
From Verif Require Import Base Ionize_Model.
From Coq Require Import Reals String QArith Qreals.
Open Scope Z_scope.

(** atomic_data.txt:1-439, the ionization energies in eV, as extracted by the regular expression of read_atomic_data.py:72-75 (transcribed
    by a script; the reading of the text is not modelled). *)
Definition atomic_data : list (string * list Q) := [
  ("H"%string, [13598434005136#1000000000000]);
  ("He"%string, [24587387936#1000000000; 54417763110#1000000000]);
  ("Li"%string, [5391714761#1000000000; 756400937#10000000; 12245435380#100000000]);
  ("Be"%string, [93226990#10000000; 18211153#1000000; 1538961980#10000000; 2177185766#10000000]);
  ("B"%string, [82980190#10000000; 25154830#1000000; 37930580#1000000; 2593715#10000; 3402260080#10000000]);
  ("C"%string, [11260300#1000000; 2438450#100000; 4788778#100000; 6449351#100000; 392090500#1000000; 4899931770#10000000]);
  ("N"%string, [14534130#1000000; 29601250#1000000; 474453#10000; 7747350#100000; 9789013#100000; 552067310#1000000; 667046090#1000000]);
  ("O"%string, [136180540#10000000; 35121110#1000000; 5493554#100000; 7741350#100000; 11389890#100000; 1381189#10000; 739326790#1000000; 871409850#1000000]);
  ("F"%string, [17422820#1000000; 3497081#100000; 6270800#100000; 87175#1000; 1142490#10000; 15716310#100000; 18518680#100000; 95389800#100000; 1103117430#1000000]);
  ("Ne"%string, [215645400#10000000; 40962960#1000000; 6342331#100000; 971900#10000; 126247#1000; 1579340#10000; 207271#1000; 2390969#10000; 119580779#100000; 1362199100#1000000]);
  ("Na"%string, [513907670#100000000; 4728636#100000; 716200#10000; 98936#1000; 138400#1000; 172228#1000; 208500#1000; 264192#1000; 2998600#10000; 1465134440#1000000; 164870200#100000]);
  ("Mg"%string, [76462350#10000000; 150352700#10000000; 8014360#100000; 1092654#10000; 141335#1000; 186760#1000; 225015#1000; 265924#1000; 327985#1000; 3675000#10000; 176180481#100000; 196266400#100000]);
  ("Al"%string, [59857684#10000000; 18828550#1000000; 28447641#1000000; 1199924#10000; 1538252#10000; 190490#1000; 241760#1000; 284638#1000; 330212#1000; 398650#1000; 4420050#10000; 208597693#100000; 230414000#100000]);
  ("Si"%string, [8151683#1000000; 16345845#1000000; 33493000#1000000; 45141790#1000000; 1667670#10000; 205267#1000; 24632#100; 30366#100; 351100#1000; 401380#1000; 476180#1000; 5234150#10000; 243765804#100000; 267317740#100000]);
  ("P"%string, [10486686#1000000; 19769490#1000000; 30202640#1000000; 5144387#100000; 6502511#100000; 2204304#10000; 263570#1000; 30960#100; 37231#100; 424400#1000; 479441#1000; 56062#100; 6117400#10000; 281690867#100000; 306984140#100000]);
  ("S"%string, [1036001#100000; 2333788#100000; 34856#1000; 47222#1000; 7259449#100000; 8805292#100000; 2809540#10000; 3287900#10000; 37984#100; 44774#100; 50455#100; 564407#1000; 65196#100; 7069940#10000; 322378059#100000; 349418770#100000]);
  ("Cl"%string, [12967632#1000000; 2381364#100000; 3980#100; 5324#100; 6768#100; 96940#1000; 11420130#100000; 3483060#10000; 400851#1000; 45668#100; 52997#100; 59158#100; 65630#100; 75020#100; 8091980#10000; 365834362#100000; 394629080#100000]);
  ("Ar"%string, [1575961120#100000000; 2762967#100000; 40735#1000; 5958#100; 7484#100; 91290#1000; 124412#1000; 1434567#10000; 422598#1000; 47976#100; 54043#100; 61895#100; 68547#100; 75513#100; 85547#100; 9183740#10000; 412066550#100000; 442622270#100000]);
  ("Kr"%string, [139996049#10000000; 2435984#100000; 35838#1000; 5085#100; 6469#100; 7849#100; 109130#1000; 1258024#10000; 23300#100; 268#1; 308#1; 350#1; 391#1; 446#1; 492#1; 540#1; 591#1; 640#1; 785#1; 83164#100; 8828#10; 945#1; 9990#10; 1042#1; 11550#10; 1205233#1000; 29289#10; 3072#1; 3228#1; 3380#1; 3584#1; 37520#10; 3971#1; 41090830#10000; 172964200#10000; 17936208#1000]);
  ("Rb"%string, [41771280#10000000; 27289540#1000000; 392470#10000; 5220#100; 6840#100; 829#10; 98670#1000; 13280#100; 150630#1000; 27712#100; 3131#10; 3560#10; 400#1; 443#1; 502#1; 550#1; 601#1; 654#1; 7060#10; 857#1; 9053#10; 9589#10; 1024#1; 1080#1; 1125#1; 12425#10; 1294567#1000; 31333#10; 3281#1; 3442#1; 3600#1; 3815#1; 3988#1; 4214#1; 4356865#1000; 183058830#10000; 18965510#1000]);
  ("Xe"%string, [121298431#10000000; 209750#10000; 31050#1000; 4220#100; 5414#100; 667030#10000; 9160#100; 1059778#10000; 17984#100; 2020#10; 22902#100; 2550#10; 281#1; 314#1; 343#1; 374#1; 404#1; 430#1; 549#1; 582#1; 616#1; 650#1; 700#1; 736#1; 818#1; 85703#100; 1493#1; 1571#1; 1653#1; 1742#1; 1826#1; 1919#1; 2023#1; 2113#1; 2209#1; 2300#1; 2556#1; 2637#1; 2726#1; 2811#1; 2975#1; 3068#1; 3243#1; 333380#100; 7660#1; 7889#1; 8144#1; 8382#1; 8971#1; 9243#1; 9581#1; 9810400#1000; 40271722#1000; 41299710#1000]);
  ("Rn"%string, [1074850#100000; 214#10; 294#10; 369#10; 529#10; 640#10; 880#10; 1020#10; 1540#10; 1739#10; 1950#10; 2180#10; 240#1; 264#1; 293#1; 317#1; 342#1; 367#1; 488#1; 520#1; 550#1; 580#1; 640#1; 680#1; 760#1; 800#1; 850#1; 920#1; 980#1; 1050#1; 1120#1; 1180#1; 1250#1; 1310#1; 1390#1; 1460#1; 1520#1; 1590#1; 1660#1; 1720#1; 2033#1; 2094#1; 2158#1; 2227#1; 2293#1; 2357#1; 2467#1; 2535#1; 2606#1; 2674#1; 2944#1; 3010#1; 3082#1; 3149#1; 3433#1; 3510#1; 3699#1; 3777#1; 6169#1; 6318#1; 6476#1; 6646#1; 6807#1; 6964#1; 7283#1; 7450#1; 7630#1; 7800#1; 8260#1; 8410#1; 8570#1; 8710#1; 9610#1; 9780#1; 10120#1; 10290#1; 21770#1; 22160#1; 22600#1; 23000#1; 26310#1; 26830#1; 27490#1; 2790310#100; 11084200#100; 1128437#10])].
(** read_atomic_data.py:14-90 get_ionization_energies: the energies in Joules, or None. The cache returns the same array. *)
Definition lookup (element : string) : option (list Q) :=
  match find (fun x => String.eqb (fst x) element) atomic_data with Some (_, l) => Some l | None => None end.
Definition get_ionization_energies (e : R) (element : string) : option (list R) :=
  match lookup element with Some l => Some (map (fun q => e * Q2R q)%R l) | None => None end.

(** ionizer.py:156-207 initialize_ADK_parameters. [alpha], [r_e], [c], [m_e], [e]: constants of scipy; [gamma]: scipy.special.gamma.
    [level_max]: None, or an integer. Returns level_max and the tables (the elements 0 <= i < len(Uion) exist). *)
Section Adk.
Context (alpha r_e c m_e e : R) (gamma : R -> R).
Definition wa : R := (alpha ^ 3 * c / r_e)%R.
Definition Ea : R := (m_e * c ^ 2 / e * alpha ^ 4 / r_e)%R.
Definition n_eff (UH : R) (Uion : list R) (i : Z) : R := (IZR (i + 1) * sqrt (UH / nth (Z.to_nat i) Uion 0))%R.
Definition l_eff (UH : R) (Uion : list R) : R := (n_eff UH Uion 0 - 1)%R.
Definition C2 (UH : R) (Uion : list R) (i : Z) : R :=
  let n := n_eff UH Uion i in let l := l_eff UH Uion in (Rpower 2 (2 * n) / (n * gamma (n + l + 1) * gamma (n - l)))%R.
Definition initialize_ADK_parameters (element : string) (dt : R) (level_max : option Z) : res (Z * adk) :=
  match get_ionization_energies e element with
  | None => Err ValueError
  | Some Uion =>
      let len := Z.of_nat (List.length Uion) in
      bind (match level_max with None => Ok len | Some m => if m >? len then Err ValueError else Ok m end) (fun level_max =>
      match get_ionization_energies e "H" with
      | Some (UH :: _) =>
          let U i := nth (Z.to_nat i) Uion 0%R in let n := n_eff UH Uion in
          Ok (level_max, {|
            adk_power := fun i => (- (2 * n i - 1))%R;
            adk_prefactor := fun i => (dt * wa * C2 UH Uion i * (U i / (2 * UH)) * Rpower (2 * Rpower (U i / UH) (3 / 2) * Ea) (2 * n i - 1))%R;
            adk_exp_prefactor := fun i => (- 2 / 3 * Rpower (U i / UH) (3 / 2) * Ea)%R |})
      | Some [] => Err IndexError
      | None => Err TypeError
      end)
  end.
End Adk.
