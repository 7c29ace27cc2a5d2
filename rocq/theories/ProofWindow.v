(* Sums of a few small numbers times consecutive powers of the prime of fnv1a are not multiples of 2^w, unless the numbers are 0:
   a combination of the powers, modulo 2^w, with small coefficients, is an equation between integers, and there are enough of these. *)
From Coq Require Import ZArith Lia.
Open Scope Z_scope.

Lemma small_multiple M x y : x = M * y -> - M < x < M -> x = 0.
Proof. intros -> H. assert (y = 0) by nia. lia. Qed.
Lemma three e1 e2 e3 z : -510 <= e1 <= 510 -> -510 <= e2 <= 510 -> -510 <= e3 <= 510 ->
  ((e1 * 16777619 + e2) * 16777619 + e3) * 16777619 = 4294967296 * z -> e1 = 0 /\ e2 = 0 /\ e3 = 0.
Proof.
  intros H1 H2 H3 E.
  assert (X1 : (-1365590) * e1 + (745966) * e2 + (-1080550) * e3 = 0).
  { apply (small_multiple 4294967296 _ (3668920510 * z - ((4034311468780532220580) * e1 + (240457926049014) * e2 + (14332065) * e3))); [clear - E; lia|clear E; lia]. }
  assert (X2 : (-1254223) * e1 + (-1793237) * e2 + (-379127) * e3 = 0).
  { apply (small_multiple 4294967296 _ (3650729587 * z - ((4014308896065593906061) * e1 + (239265708445614) * e2 + (14261005) * e3))); [clear - E; lia|clear E; lia]. }
  assert (X3 : (2758050) * e1 + (-909034) * e2 + (-3415982) * e3 = 0).
  { apply (small_multiple 4294967296 _ (3019807142 * z - ((3320552340469202814718) * e1 + (197915588646351) * e2 + (11796405) * e3))); [clear - E; lia|clear E; lia]. }
  clear E. repeat split; lia.
Qed.
Lemma six e1 e2 e3 e4 e5 e6 z : -510 <= e1 <= 510 -> -510 <= e2 <= 510 -> -510 <= e3 <= 510 -> -510 <= e4 <= 510 -> -510 <= e5 <= 510 -> -510 <= e6 <= 510 ->
  (((((e1 * 1099511628211 + e2) * 1099511628211 + e3) * 1099511628211 + e4) * 1099511628211 + e5) * 1099511628211 + e6) * 1099511628211 = 18446744073709551616 * z -> e1 = 0 /\ e2 = 0 /\ e3 = 0 /\ e4 = 0 /\ e5 = 0 /\ e6 = 0.
Proof.
  intros H1 H2 H3 H4 H5 H6 E.
  assert (X1 : (4482579670404340) * e1 + (-5247281785750212) * e2 + (-1973864442898476) * e3 + (-1178876700584228) * e4 + (-4977183758088268) * e5 + (5046382459189116) * e6 = 0).
  { apply (small_multiple 18446744073709551616 _ (12593429453084267668 * z - ((1206210907929580094372690807620437979777802041196253417091679922231376263) * e1 + (1097042429548643337983804445318567601192830929610292480639330) * e2 + (997754276899850290221701988295651277698400575729) * e3 + (907452228152677499542994406505794096) * e4 + (825322993290375959497106) * e5 + (750626889352) * e6))); [clear - E; lia|clear E; lia]. }
  assert (X2 : (-1150927258463695) * e1 + (6373219910648459) * e2 + (-2407835907481655) * e3 + (-7420022407511405) * e4 + (-521531150890079) * e5 + (2434785518635867) * e6 = 0).
  { apply (small_multiple 18446744073709551616 _ (3043126869017570233 * z - ((291473648008057170094147153310363790948728672351678919036434508588461888) * e1 + (265093738464876327145180722256746027384946637939017029141689) * e2 + (241101350511596355929792759913913120565115996663) * e3 + (219280400793840618993701437513348533) * e4 + (199434362645739994370892) * e5 + (181384496106) * e6))); [clear - E; lia|clear E; lia]. }
  assert (X3 : (6302646686563376) * e1 + (-1535281643037936) * e2 + (5452110822838448) * e3 + (-559839306353520) * e4 + (5164142811992368) * e5 + (4410605614494224) * e6 = 0).
  { apply (small_multiple 18446744073709551616 _ (13866688066267192752 * z - ((1328164854911066973518873655511780705528091799367816881371361657260205706) * e1 + (1207958898144720344886009393563987595669238721940653738172093) * e2 + (1098632217387435348721260212978667735136257994924) * e3 + (999200180515602615011605917469404777) * e4 + (908767269829958288606189) * e5 + (826519016728) * e6))); [clear - E; lia|clear E; lia]. }
  assert (X4 : (-10117495039556816) * e1 + (644476066068496) * e2 + (7704392091402160) * e3 + (-4253954618046064) * e4 + (-3431600937981904) * e5 + (2518874921680656) * e6 = 0).
  { apply (small_multiple 18446744073709551616 _ (4102797547569945776 * z - ((392969935103227533190885545991440257305397686343117146005690571711204822) * e1 + (357404073791037045422658076161118510003972127825717753150005) * e2 + (325057111376406466637419055745195892772982837841) * e3 + (295637720453491109074230210624505845) * e4 + (268880940290298804073200) * e5 + (244545790505) * e6))); [clear - E; lia|clear E; lia]. }
  assert (X5 : (10753435092956894) * e1 + (1503490379027114) * e2 + (2833942984976814) * e3 + (-84464088609638) * e4 + (-3509890893664258) * e5 + (-8107455562062582) * e6 = 0).
  { apply (small_multiple 18446744073709551616 _ (4562491563806612942 * z - ((436999874585583970831816886542122191904904198215967827908755383377151573) * e1 + (397449070453779882140609186363651311545905516771653245189633) * e2 + (361477823659276535953562318558262361851176491988) * e3 + (328762165296452616575702841462618040) * e4 + (299007447362222935201440) * e5 + (271945689059) * e6))); [clear - E; lia|clear E; lia]. }
  assert (X6 : (-964417354571113) * e1 + (6415703093100941) * e2 + (-1237812376006721) * e3 + (6915764390345669) * e4 + (-1040540266766169) * e5 + (8671412534092605) * e6 = 0).
  { apply (small_multiple 18446744073709551616 _ (7698100873003003727 * z - ((737331580563570657932110612525534254928404305926659030660859056269710710) * e1 + (670599165707117227475023008604602406362939526987957230104346) * e2 + (609906387982671684496891271781764501736572100283) * e3 + (554706628228245154985056278167817273) * e4 + (504502739212317886474646) * e5 + (458842568162) * e6))); [clear - E; lia|clear E; lia]. }
  clear E. repeat split; lia.
Qed.
