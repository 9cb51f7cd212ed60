(** The tables of machine instructions and of extended mnemonics, transcribed entry by entry and in
    the same order from parser_library/src/context/instruction.cpp: [get_machine_instructions], lines
    239-1790, and [get_mnemonic_codes], lines 1792-2762.  Page numbers are left out. *)
From Coq Require Import ZArith String List.
From Verif Require Import Mach_Model.
Import ListNotations.
Local Open Scope string_scope.

Definition instrs : list instr := [
  mkI "AR" F_RR [reg_4_U; reg_4_U] 0;
  mkI "ADDFRR" F_RRE [reg_4_U; reg_4_U] 0;
  mkI "AGR" F_RRE [reg_4_U; reg_4_U] 0;
  mkI "AGFR" F_RRE [reg_4_U; reg_4_U] 0;
  mkI "ARK" F_RRF_a [reg_4_U; reg_4_U; reg_4_U] 0;
  mkI "AGRK" F_RRF_a [reg_4_U; reg_4_U; reg_4_U] 0;
  mkI "A" F_RX_a [reg_4_U; dxb_12_4x4_U] 0;
  mkI "AY" F_RXY_a [reg_4_U; dxb_20_4x4_S] 0;
  mkI "AG" F_RXY_a [reg_4_U; dxb_20_4x4_S] 0;
  mkI "AGF" F_RXY_a [reg_4_U; dxb_20_4x4_S] 0;
  mkI "AFI" F_RIL_a [reg_4_U; imm_32_S] 0;
  mkI "AGFI" F_RIL_a [reg_4_U; imm_32_S] 0;
  mkI "AHIK" F_RIE_d [reg_4_U; reg_4_U; imm_16_S] 0;
  mkI "AGHIK" F_RIE_d [reg_4_U; reg_4_U; imm_16_S] 0;
  mkI "ASI" F_SIY [db_20_4_S; imm_8_S] 0;
  mkI "AGSI" F_SIY [db_20_4_S; imm_8_S] 0;
  mkI "AH" F_RX_a [reg_4_U; dxb_12_4x4_U] 0;
  mkI "AHY" F_RXY_a [reg_4_U; dxb_20_4x4_S] 0;
  mkI "AGH" F_RXY_a [reg_4_U; dxb_20_4x4_S] 0;
  mkI "AHI" F_RI_a [reg_4_U; imm_16_S] 0;
  mkI "AGHI" F_RI_a [reg_4_U; imm_16_S] 0;
  mkI "AHHHR" F_RRF_a [reg_4_U; reg_4_U; reg_4_U] 0;
  mkI "AHHLR" F_RRF_a [reg_4_U; reg_4_U; reg_4_U] 0;
  mkI "AIH" F_RIL_a [reg_4_U; imm_32_S] 0;
  mkI "ALR" F_RR [reg_4_U; reg_4_U] 0;
  mkI "ALGR" F_RRE [reg_4_U; reg_4_U] 0;
  mkI "ALGFR" F_RRE [reg_4_U; reg_4_U] 0;
  mkI "ALRK" F_RRF_a [reg_4_U; reg_4_U; reg_4_U] 0;
  mkI "ALGRK" F_RRF_a [reg_4_U; reg_4_U; reg_4_U] 0;
  mkI "AL" F_RX_a [reg_4_U; dxb_12_4x4_U] 0;
  mkI "ALY" F_RXY_a [reg_4_U; dxb_20_4x4_S] 0;
  mkI "ALG" F_RXY_a [reg_4_U; dxb_20_4x4_S] 0;
  mkI "ALGF" F_RXY_a [reg_4_U; dxb_20_4x4_S] 0;
  mkI "ALFI" F_RIL_a [reg_4_U; imm_32_S] 0;
  mkI "ALGFI" F_RIL_a [reg_4_U; imm_32_S] 0;
  mkI "ALHHHR" F_RRF_a [reg_4_U; reg_4_U; reg_4_U] 0;
  mkI "ALHHLR" F_RRF_a [reg_4_U; reg_4_U; reg_4_U] 0;
  mkI "ALCR" F_RRE [reg_4_U; reg_4_U] 0;
  mkI "ALCGR" F_RRE [reg_4_U; reg_4_U] 0;
  mkI "ALC" F_RXY_a [reg_4_U; dxb_20_4x4_S] 0;
  mkI "ALCG" F_RXY_a [reg_4_U; dxb_20_4x4_S] 0;
  mkI "ALSI" F_SIY [db_20_4_S; imm_8_S] 0;
  mkI "ALGSI" F_SIY [db_20_4_S; imm_8_S] 0;
  mkI "ALHSIK" F_RIE_d [reg_4_U; reg_4_U; imm_16_S] 0;
  mkI "ALGHSIK" F_RIE_d [reg_4_U; reg_4_U; imm_16_S] 0;
  mkI "ALSIH" F_RIL_a [reg_4_U; imm_32_S] 0;
  mkI "ALSIHN" F_RIL_a [reg_4_U; imm_32_S] 0;
  mkI "NR" F_RR [reg_4_U; reg_4_U] 0;
  mkI "NGR" F_RRE [reg_4_U; reg_4_U] 0;
  mkI "NRK" F_RRF_a [reg_4_U; reg_4_U; reg_4_U] 0;
  mkI "NGRK" F_RRF_a [reg_4_U; reg_4_U; reg_4_U] 0;
  mkI "N" F_RX_a [reg_4_U; dxb_12_4x4_U] 0;
  mkI "NY" F_RXY_a [reg_4_U; dxb_20_4x4_S] 0;
  mkI "NG" F_RXY_a [reg_4_U; dxb_20_4x4_S] 0;
  mkI "NI" F_SI [db_12_4_U; imm_8_U] 0;
  mkI "NIY" F_SIY [db_20_4_S; imm_8_U] 0;
  mkI "NC" F_SS_a [db_12_8x4L_U; db_12_4_U] 0;
  mkI "NIHF" F_RIL_a [reg_4_U; imm_32_S] 0;
  mkI "NIHH" F_RI_a [reg_4_U; imm_16_U] 0;
  mkI "NIHL" F_RI_a [reg_4_U; imm_16_U] 0;
  mkI "NILF" F_RIL_a [reg_4_U; imm_32_S] 0;
  mkI "NILH" F_RI_a [reg_4_U; imm_16_U] 0;
  mkI "NILL" F_RI_a [reg_4_U; imm_16_U] 0;
  mkI "BALR" F_RR [reg_4_U; reg_4_U] 0;
  mkI "BAL" F_RX_a [reg_4_U; dxb_12_4x4_U] 0;
  mkI "BASR" F_RR [reg_4_U; reg_4_U] 0;
  mkI "BAS" F_RX_a [reg_4_U; dxb_12_4x4_U] 0;
  mkI "BASSM" F_RX_a [reg_4_U; reg_4_U] 0;
  mkI "BSM" F_RR [reg_4_U; reg_4_U] 0;
  mkI "BIC" F_RXY_b [mask_4_U; dxb_20_4x4_S] 0;
  mkI "BCR" F_RR [mask_4_U; reg_4_U] 0;
  mkI "BC" F_RX_b [mask_4_U; dxb_12_4x4_U] 0;
  mkI "BCTR" F_RR [reg_4_U; reg_4_U] 0;
  mkI "BCTGR" F_RRE [reg_4_U; reg_4_U] 0;
  mkI "BCT" F_RX_a [reg_4_U; dxb_12_4x4_U] 0;
  mkI "BCTG" F_RXY_a [reg_4_U; dxb_20_4x4_S] 0;
  mkI "BXH" F_RS_a [reg_4_U; reg_4_U; db_12_4_U] 0;
  mkI "BXHG" F_RSY_a [reg_4_U; reg_4_U; db_20_4_S] 0;
  mkI "BXLE" F_RS_a [reg_4_U; reg_4_U; db_12_4_U] 0;
  mkI "BXLEG" F_RSY_a [reg_4_U; reg_4_U; db_20_4_S] 0;
  mkI "BPP" F_SMI [mask_4_U; reg_imm_16_S; db_12_4_U] 0;
  mkI "BPRP" F_MII [mask_4_U; reg_imm_12_S; reg_imm_24_S] 0;
  mkI "BRAS" F_RI_b [reg_4_U; reg_imm_16_S] 0;
  mkI "BRASL" F_RIL_b [reg_4_U; reg_imm_32_S] 0;
  mkI "BRC" F_RI_c [mask_4_U; reg_imm_16_S] 0;
  mkI "BRCL" F_RIL_c [mask_4_U; reg_imm_32_S] 0;
  mkI "BRCT" F_RI_b [reg_4_U; reg_imm_16_S] 0;
  mkI "BRCTG" F_RI_b [reg_4_U; reg_imm_16_S] 0;
  mkI "BRCTH" F_RIL_b [reg_4_U; reg_imm_32_S] 0;
  mkI "BRXH" F_RSI [reg_4_U; reg_4_U; reg_imm_16_S] 0;
  mkI "BRXHG" F_RIE_e [reg_4_U; reg_4_U; reg_imm_16_S] 0;
  mkI "BRXLE" F_RSI [reg_4_U; reg_4_U; reg_imm_16_S] 0;
  mkI "BRXLG" F_RIE_e [reg_4_U; reg_4_U; reg_imm_16_S] 0;
  mkI "CKSM" F_RRE [reg_4_U; reg_4_U] 0;
  mkI "KM" F_RRE [reg_4_U; reg_4_U] 0;
  mkI "KMC" F_RRE [reg_4_U; reg_4_U] 0;
  mkI "KMA" F_RRF_b [reg_4_U; reg_4_U; reg_4_U] 0;
  mkI "KMF" F_RRE [reg_4_U; reg_4_U] 0;
  mkI "KMCTR" F_RRF_b [reg_4_U; reg_4_U; reg_4_U] 0;
  mkI "KMO" F_RRE [reg_4_U; reg_4_U] 0;
  mkI "CR" F_RR [reg_4_U; reg_4_U] 0;
  mkI "CGR" F_RRE [reg_4_U; reg_4_U] 0;
  mkI "CGFR" F_RRE [reg_4_U; reg_4_U] 0;
  mkI "C" F_RX_a [reg_4_U; dxb_12_4x4_U] 0;
  mkI "CY" F_RXY_a [reg_4_U; dxb_20_4x4_S] 0;
  mkI "CG" F_RXY_a [reg_4_U; dxb_20_4x4_S] 0;
  mkI "CGF" F_RXY_a [reg_4_U; dxb_20_4x4_S] 0;
  mkI "CFI" F_RIL_a [reg_4_U; imm_32_S] 0;
  mkI "CGFI" F_RIL_a [reg_4_U; imm_32_S] 0;
  mkI "CRL" F_RIL_b [reg_4_U; reg_imm_32_S] 0;
  mkI "CGRL" F_RIL_b [reg_4_U; reg_imm_32_S] 0;
  mkI "CGFRL" F_RIL_b [reg_4_U; reg_imm_32_S] 0;
  mkI "CRB" F_RRS [reg_4_U; reg_4_U; mask_4_U; db_12_4_U] 0;
  mkI "CGRB" F_RRS [reg_4_U; reg_4_U; mask_4_U; db_12_4_U] 0;
  mkI "CRJ" F_RIE_b [reg_4_U; reg_4_U; mask_4_U; reg_imm_16_S] 0;
  mkI "CGRJ" F_RIE_b [reg_4_U; reg_4_U; mask_4_U; reg_imm_16_S] 0;
  mkI "CIB" F_RIS [reg_4_U; imm_8_S; mask_4_U; db_12_4_U] 0;
  mkI "CGIB" F_RIS [reg_4_U; imm_8_S; mask_4_U; db_12_4_U] 0;
  mkI "CIJ" F_RIE_c [reg_4_U; imm_8_S; mask_4_U; reg_imm_16_S] 0;
  mkI "CGIJ" F_RIE_c [reg_4_U; imm_8_S; mask_4_U; reg_imm_16_S] 0;
  mkI "CFC" F_S [db_12_4_U] 0;
  mkI "CS" F_RS_a [reg_4_U; reg_4_U; db_12_4_U] 0;
  mkI "CSY" F_RSY_a [reg_4_U; reg_4_U; db_20_4_S] 0;
  mkI "CSG" F_RSY_a [reg_4_U; reg_4_U; db_20_4_S] 0;
  mkI "CDS" F_RS_a [reg_4_U; reg_4_U; db_12_4_U] 0;
  mkI "CDSY" F_RSY_a [reg_4_U; reg_4_U; db_20_4_S] 0;
  mkI "CDSG" F_RSY_a [reg_4_U; reg_4_U; db_20_4_S] 0;
  mkI "CSST" F_SSF [db_12_4_U; db_12_4_U; reg_4_U] 0;
  mkI "CRT" F_RRF_c [reg_4_U; reg_4_U; mask_4_U] 0;
  mkI "CGRT" F_RRF_c [reg_4_U; reg_4_U; mask_4_U] 0;
  mkI "CIT" F_RIE_a [reg_4_U; imm_16_S; mask_4_U] 0;
  mkI "CGIT" F_RIE_a [reg_4_U; imm_16_S; mask_4_U] 0;
  mkI "CH" F_RX_a [reg_4_U; dxb_12_4x4_U] 0;
  mkI "CHY" F_RXY_a [reg_4_U; dxb_20_4x4_S] 0;
  mkI "CGH" F_RXY_a [reg_4_U; dxb_20_4x4_S] 0;
  mkI "CHI" F_RI_a [reg_4_U; imm_16_S] 0;
  mkI "CGHI" F_RI_a [reg_4_U; imm_16_S] 0;
  mkI "CHHSI" F_SIL [db_12_4_U; imm_16_S] 0;
  mkI "CHSI" F_SIL [db_12_4_U; imm_16_S] 0;
  mkI "CGHSI" F_SIL [db_12_4_U; imm_16_S] 0;
  mkI "CHRL" F_RIL_b [reg_4_U; reg_imm_32_S] 0;
  mkI "CGHRL" F_RIL_b [reg_4_U; reg_imm_32_S] 0;
  mkI "CHHR" F_RRE [reg_4_U; reg_4_U] 0;
  mkI "CHLR" F_RRE [reg_4_U; reg_4_U] 0;
  mkI "CHF" F_RXY_a [reg_4_U; dxb_20_4x4_S] 0;
  mkI "CIH" F_RIL_a [reg_4_U; imm_32_S] 0;
  mkI "CLR" F_RR [reg_4_U; reg_4_U] 0;
  mkI "CLGR" F_RRE [reg_4_U; reg_4_U] 0;
  mkI "CLGFR" F_RRE [reg_4_U; reg_4_U] 0;
  mkI "CL" F_RX_a [reg_4_U; dxb_12_4x4_U] 0;
  mkI "CLY" F_RXY_a [reg_4_U; dxb_20_4x4_S] 0;
  mkI "CLG" F_RXY_a [reg_4_U; dxb_20_4x4_S] 0;
  mkI "CLGF" F_RXY_a [reg_4_U; dxb_20_4x4_S] 0;
  mkI "CLC" F_SS_a [db_12_8x4L_U; db_12_4_U] 0;
  mkI "CLFI" F_RIL_a [reg_4_U; imm_32_S] 0;
  mkI "CLGFI" F_RIL_a [reg_4_U; imm_32_S] 0;
  mkI "CLI" F_SI [db_12_4_U; imm_8_U] 0;
  mkI "CLIY" F_SIY [db_12_4_U; imm_8_U] 0;
  mkI "CLFHSI" F_SIL [db_12_4_U; imm_16_U] 0;
  mkI "CLGHSI" F_SIL [db_12_4_U; imm_16_U] 0;
  mkI "CLHHSI" F_SIL [db_12_4_U; imm_16_U] 0;
  mkI "CLRL" F_RIL_b [reg_4_U; reg_imm_32_S] 0;
  mkI "CLGRL" F_RIL_b [reg_4_U; reg_imm_32_S] 0;
  mkI "CLGFRL" F_RIL_b [reg_4_U; reg_imm_32_S] 0;
  mkI "CLHRL" F_RIL_b [reg_4_U; reg_imm_32_S] 0;
  mkI "CLGHRL" F_RIL_b [reg_4_U; reg_imm_32_S] 0;
  mkI "CLRB" F_RRS [reg_4_U; reg_4_U; mask_4_U; db_12_4_U] 0;
  mkI "CLGRB" F_RRS [reg_4_U; reg_4_U; mask_4_U; db_12_4_U] 0;
  mkI "CLRJ" F_RIE_b [reg_4_U; reg_4_U; mask_4_U; reg_imm_16_S] 0;
  mkI "CLGRJ" F_RIE_b [reg_4_U; reg_4_U; mask_4_U; reg_imm_16_S] 0;
  mkI "CLIB" F_RIS [reg_4_U; imm_8_S; mask_4_U; db_12_4_U] 0;
  mkI "CLGIB" F_RIS [reg_4_U; imm_8_S; mask_4_U; db_12_4_U] 0;
  mkI "CLIJ" F_RIE_c [reg_4_U; imm_8_S; mask_4_U; reg_imm_16_S] 0;
  mkI "CLGIJ" F_RIE_c [reg_4_U; imm_8_S; mask_4_U; reg_imm_16_S] 0;
  mkI "CLRT" F_RRF_c [reg_4_U; reg_4_U; mask_4_U] 0;
  mkI "CLGRT" F_RRF_c [reg_4_U; reg_4_U; mask_4_U] 0;
  mkI "CLT" F_RSY_b [reg_4_U; mask_4_U; dxb_20_4x4_S] 0;
  mkI "CLGT" F_RSY_b [reg_4_U; mask_4_U; dxb_20_4x4_S] 0;
  mkI "CLFIT" F_RIE_a [reg_4_U; imm_16_S; mask_4_U] 0;
  mkI "CLGIT" F_RIE_a [reg_4_U; imm_16_S; mask_4_U] 0;
  mkI "CLM" F_RS_b [reg_4_U; mask_4_U; db_12_4_U] 0;
  mkI "CLMY" F_RSY_b [reg_4_U; mask_4_U; db_20_4_S] 0;
  mkI "CLMH" F_RSY_b [reg_4_U; mask_4_U; db_20_4_S] 0;
  mkI "CLHHR" F_RRE [reg_4_U; reg_4_U] 0;
  mkI "CLHLR" F_RRE [reg_4_U; reg_4_U] 0;
  mkI "CLHF" F_RXY_a [reg_4_U; dxb_20_4x4_S] 0;
  mkI "CLCL" F_RR [reg_4_U; reg_4_U] 0;
  mkI "CLIH" F_RIL_a [reg_4_U; imm_32_S] 0;
  mkI "CLCLE" F_RS_a [reg_4_U; reg_4_U; db_12_4_U] 0;
  mkI "CLCLU" F_RSY_a [reg_4_U; reg_4_U; db_20_4_S] 0;
  mkI "CLST" F_RRE [reg_4_U; reg_4_U] 0;
  mkI "CUSE" F_RRE [reg_4_U; reg_4_U] 0;
  mkI "CMPSC" F_RRE [reg_4_U; reg_4_U] 0;
  mkI "KIMD" F_RRE [reg_4_U; reg_4_U] 0;
  mkI "KLMD" F_RRE [reg_4_U; reg_4_U] 0;
  mkI "KMAC" F_RRE [reg_4_U; reg_4_U] 0;
  mkI "CVB" F_RX_a [reg_4_U; dxb_12_4x4_U] 0;
  mkI "CVBY" F_RXY_a [reg_4_U; dxb_20_4x4_S] 0;
  mkI "CVBG" F_RXY_a [reg_4_U; dxb_20_4x4_S] 0;
  mkI "CVD" F_RX_a [reg_4_U; dxb_12_4x4_U] 0;
  mkI "CVDY" F_RXY_a [reg_4_U; dxb_20_4x4_S] 0;
  mkI "CVDG" F_RXY_a [reg_4_U; dxb_20_4x4_S] 0;
  mkI "CU24" F_RRF_c [reg_4_U; reg_4_U; mask_4_U] 1;
  mkI "CUUTF" F_RRF_c [reg_4_U; reg_4_U; mask_4_U] 0;
  mkI "CU21" F_RRF_c [reg_4_U; reg_4_U; mask_4_U] 0;
  mkI "CU42" F_RRE [reg_4_U; reg_4_U] 0;
  mkI "CU41" F_RRE [reg_4_U; reg_4_U] 0;
  mkI "CUTFU" F_RRF_c [reg_4_U; reg_4_U; mask_4_U] 1;
  mkI "CU12" F_RRF_c [reg_4_U; reg_4_U; mask_4_U] 1;
  mkI "CU14" F_RRF_c [reg_4_U; reg_4_U; mask_4_U] 1;
  mkI "CPYA" F_RRE [reg_4_U; reg_4_U] 0;
  mkI "DR" F_RR [reg_4_U; reg_4_U] 0;
  mkI "D" F_RX_a [reg_4_U; dxb_12_4x4_U] 0;
  mkI "DLR" F_RRE [reg_4_U; reg_4_U] 0;
  mkI "DLGR" F_RRE [reg_4_U; reg_4_U] 0;
  mkI "DL" F_RXY_a [reg_4_U; dxb_20_4x4_S] 0;
  mkI "DLG" F_RXY_a [reg_4_U; dxb_20_4x4_S] 0;
  mkI "DSGR" F_RRE [reg_4_U; reg_4_U] 0;
  mkI "DSGFR" F_RRE [reg_4_U; reg_4_U] 0;
  mkI "DSG" F_RXY_a [reg_4_U; dxb_20_4x4_S] 0;
  mkI "DSGF" F_RXY_a [reg_4_U; dxb_20_4x4_S] 0;
  mkI "HIO" F_S [db_12_4_U] 0;
  mkI "HDV" F_S [db_12_4_U] 0;
  mkI "SIO" F_S [db_12_4_U] 0;
  mkI "SIOF" F_S [db_12_4_U] 0;
  mkI "STIDC" F_S [db_12_4_U] 0;
  mkI "CLRCH" F_S [db_12_4_U] 0;
  mkI "CLRIO" F_S [db_12_4_U] 0;
  mkI "TCH" F_S [db_12_4_U] 0;
  mkI "TIO" F_S [db_12_4_U] 0;
  mkI "RRB" F_S [db_12_4_U] 0;
  mkI "CONCS" F_S [db_12_4_U] 0;
  mkI "DISCS" F_S [db_12_4_U] 0;
  mkI "XR" F_RR [reg_4_U; reg_4_U] 0;
  mkI "XGR" F_RRE [reg_4_U; reg_4_U] 0;
  mkI "XRK" F_RRF_a [reg_4_U; reg_4_U; reg_4_U] 0;
  mkI "XGRK" F_RRF_a [reg_4_U; reg_4_U; reg_4_U] 0;
  mkI "X" F_RX_a [reg_4_U; dxb_12_4x4_U] 0;
  mkI "XY" F_RXY_a [reg_4_U; dxb_20_4x4_S] 0;
  mkI "XG" F_RXY_a [reg_4_U; dxb_20_4x4_S] 0;
  mkI "XI" F_SI [db_12_4_U; imm_8_S] 0;
  mkI "XIY" F_SIY [db_20_4_S; imm_8_S] 0;
  mkI "XC" F_SS_a [db_12_8x4L_U; db_20_4_S] 0;
  mkI "EX" F_RX_a [reg_4_U; dxb_12_4x4_U] 0;
  mkI "XIHF" F_RIL_a [reg_4_U; imm_32_S] 0;
  mkI "XILF" F_RIL_a [reg_4_U; imm_32_S] 0;
  mkI "EXRL" F_RIL_b [reg_4_U; imm_32_S] 0;
  mkI "EAR" F_RRE [reg_4_U; reg_4_U] 0;
  mkI "ECAG" F_RSY_a [reg_4_U; reg_4_U; db_20_4_S] 0;
  mkI "ECTG" F_SSF [db_12_4_U; db_12_4_U; reg_4_U] 0;
  mkI "EPSW" F_RRE [reg_4_U; reg_4_U] 0;
  mkI "ETND" F_RRE [reg_4_U] 0;
  mkI "FLOGR" F_RRE [reg_4_U; reg_4_U] 0;
  mkI "IC" F_RX_a [reg_4_U; dxb_12_4x4_U] 0;
  mkI "ICY" F_RXY_a [reg_4_U; dxb_20_4x4_S] 0;
  mkI "ICM" F_RS_b [reg_4_U; mask_4_U; db_12_4_U] 0;
  mkI "ICMY" F_RSY_b [reg_4_U; mask_4_U; db_20_4_S] 0;
  mkI "ICMH" F_RSY_b [reg_4_U; mask_4_U; db_20_4_S] 0;
  mkI "IIHF" F_RIL_a [reg_4_U; imm_32_S] 0;
  mkI "IIHH" F_RI_a [reg_4_U; imm_16_U] 0;
  mkI "IIHL" F_RI_a [reg_4_U; imm_16_U] 0;
  mkI "IILF" F_RIL_a [reg_4_U; imm_32_S] 0;
  mkI "IILH" F_RI_a [reg_4_U; imm_16_U] 0;
  mkI "IILL" F_RI_a [reg_4_U; imm_16_U] 0;
  mkI "IPM" F_RRE [reg_4_U] 0;
  mkI "LR" F_RR [reg_4_U; reg_4_U] 0;
  mkI "LGR" F_RRE [reg_4_U; reg_4_U] 0;
  mkI "LGFR" F_RRE [reg_4_U; reg_4_U] 0;
  mkI "L" F_RX_a [reg_4_U; dxb_12_4x4_U] 0;
  mkI "LY" F_RXY_a [reg_4_U; dxb_20_4x4_S] 0;
  mkI "LG" F_RXY_a [reg_4_U; dxb_20_4x4_S] 0;
  mkI "LGF" F_RXY_a [reg_4_U; dxb_20_4x4_S] 0;
  mkI "LGFI" F_RIL_a [reg_4_U; imm_32_S] 0;
  mkI "LRL" F_RIL_b [reg_4_U; reg_imm_32_S] 0;
  mkI "LGRL" F_RIL_b [reg_4_U; reg_imm_32_S] 0;
  mkI "LGFRL" F_RIL_b [reg_4_U; reg_imm_32_S] 0;
  mkI "LAM" F_RS_a [reg_4_U; reg_4_U; db_12_4_U] 0;
  mkI "LAMY" F_RSY_a [reg_4_U; reg_4_U; db_20_4_S] 0;
  mkI "LA" F_RX_a [reg_4_U; dxb_12_4x4_U] 0;
  mkI "LAY" F_RXY_a [reg_4_U; dxb_20_4x4_S] 0;
  mkI "LAE" F_RX_a [reg_4_U; dxb_12_4x4_U] 0;
  mkI "LAEY" F_RXY_a [reg_4_U; dxb_20_4x4_S] 0;
  mkI "LARL" F_RIL_b [reg_4_U; reg_imm_32_S] 0;
  mkI "LAA" F_RSY_a [reg_4_U; reg_4_U; db_20_4_S] 0;
  mkI "LAAG" F_RSY_a [reg_4_U; reg_4_U; db_20_4_S] 0;
  mkI "LAAL" F_RSY_a [reg_4_U; reg_4_U; db_20_4_S] 0;
  mkI "LAALG" F_RSY_a [reg_4_U; reg_4_U; db_20_4_S] 0;
  mkI "LAN" F_RSY_a [reg_4_U; reg_4_U; db_20_4_S] 0;
  mkI "LANG" F_RSY_a [reg_4_U; reg_4_U; db_20_4_S] 0;
  mkI "LAX" F_RSY_a [reg_4_U; reg_4_U; db_20_4_S] 0;
  mkI "LAXG" F_RSY_a [reg_4_U; reg_4_U; db_20_4_S] 0;
  mkI "LAO" F_RSY_a [reg_4_U; reg_4_U; db_20_4_S] 0;
  mkI "LAOG" F_RSY_a [reg_4_U; reg_4_U; db_20_4_S] 0;
  mkI "LTR" F_RR [reg_4_U; reg_4_U] 0;
  mkI "LTGR" F_RRE [reg_4_U; reg_4_U] 0;
  mkI "LTGFR" F_RRE [reg_4_U; reg_4_U] 0;
  mkI "LT" F_RXY_a [reg_4_U; dxb_20_4x4_S] 0;
  mkI "LTG" F_RXY_a [reg_4_U; dxb_20_4x4_S] 0;
  mkI "LTGF" F_RXY_a [reg_4_U; dxb_20_4x4_S] 0;
  mkI "LAT" F_RXY_a [reg_4_U; dxb_20_4x4_S] 0;
  mkI "LGAT" F_RXY_a [reg_4_U; dxb_20_4x4_S] 0;
  mkI "LZRF" F_RXY_a [reg_4_U; dxb_20_4x4_S] 0;
  mkI "LZRG" F_RXY_a [reg_4_U; dxb_20_4x4_S] 0;
  mkI "LBR" F_RRE [reg_4_U; reg_4_U] 0;
  mkI "LGBR" F_RRE [reg_4_U; reg_4_U] 0;
  mkI "LB" F_RXY_a [reg_4_U; dxb_20_4x4_S] 0;
  mkI "LGB" F_RXY_a [reg_4_U; dxb_20_4x4_S] 0;
  mkI "LBH" F_RXY_a [reg_4_U; dxb_20_4x4_S] 0;
  mkI "LCR" F_RR [reg_4_U; reg_4_U] 0;
  mkI "LCGR" F_RRE [reg_4_U; reg_4_U] 0;
  mkI "LCGFR" F_RRE [reg_4_U; reg_4_U] 0;
  mkI "LCBB" F_RXE [reg_4_U; dxb_12_4x4_U; mask_4_U] 0;
  mkI "LGG" F_RXY_a [reg_4_U; dxb_20_4x4_S] 0;
  mkI "LLGFSG" F_RXY_a [reg_4_U; dxb_20_4x4_S] 0;
  mkI "LGSC" F_RXY_a [reg_4_U; dxb_20_4x4_S] 0;
  mkI "LHR" F_RRE [reg_4_U; reg_4_U] 0;
  mkI "LGHR" F_RRE [reg_4_U; reg_4_U] 0;
  mkI "LH" F_RX_a [reg_4_U; dxb_12_4x4_U] 0;
  mkI "LHY" F_RXY_a [reg_4_U; dxb_20_4x4_S] 0;
  mkI "LGH" F_RXY_a [reg_4_U; dxb_20_4x4_S] 0;
  mkI "LHI" F_RI_a [reg_4_U; imm_16_S] 0;
  mkI "LGHI" F_RI_a [reg_4_U; imm_16_S] 0;
  mkI "LHRL" F_RIL_b [reg_4_U; imm_32_S] 0;
  mkI "LGHRL" F_RIL_b [reg_4_U; imm_32_S] 0;
  mkI "LHH" F_RXY_a [reg_4_U; dxb_20_4x4_S] 0;
  mkI "LOCHI" F_RIE_g [reg_4_U; imm_16_S; mask_4_U] 0;
  mkI "LOCGHI" F_RIE_g [reg_4_U; imm_16_S; mask_4_U] 0;
  mkI "LOCHHI" F_RIE_g [reg_4_U; imm_16_S; mask_4_U] 0;
  mkI "LFH" F_RXY_a [reg_4_U; dxb_20_4x4_S] 0;
  mkI "LFHAT" F_RXY_a [reg_4_U; dxb_20_4x4_S] 0;
  mkI "LLGFR" F_RRE [reg_4_U; reg_4_U] 0;
  mkI "LLGF" F_RXY_a [reg_4_U; dxb_20_4x4_S] 0;
  mkI "LLGFRL" F_RIL_b [reg_4_U; reg_imm_32_S] 0;
  mkI "LLGFAT" F_RXY_a [reg_4_U; dxb_20_4x4_S] 0;
  mkI "LLCR" F_RRE [reg_4_U; reg_4_U] 0;
  mkI "LLGCR" F_RRE [reg_4_U; reg_4_U] 0;
  mkI "LLC" F_RXY_a [reg_4_U; dxb_20_4x4_S] 0;
  mkI "LLGC" F_RXY_a [reg_4_U; dxb_20_4x4_S] 0;
  mkI "LLZRGF" F_RXY_a [reg_4_U; dxb_20_4x4_S] 0;
  mkI "LLCH" F_RXY_a [reg_4_U; dxb_20_4x4_S] 0;
  mkI "LLHR" F_RRE [reg_4_U; reg_4_U] 0;
  mkI "LLGHR" F_RRE [reg_4_U; reg_4_U] 0;
  mkI "LLH" F_RXY_a [reg_4_U; dxb_20_4x4_S] 0;
  mkI "LLGH" F_RXY_a [reg_4_U; dxb_20_4x4_S] 0;
  mkI "LLHRL" F_RIL_b [reg_4_U; reg_imm_32_S] 0;
  mkI "LLGHRL" F_RIL_b [reg_4_U; reg_imm_32_S] 0;
  mkI "LLHH" F_RXY_a [reg_4_U; dxb_20_4x4_S] 0;
  mkI "LLIHF" F_RIL_a [reg_4_U; imm_32_S] 0;
  mkI "LLIHH" F_RI_a [reg_4_U; imm_16_S] 0;
  mkI "LLIHL" F_RI_a [reg_4_U; imm_16_S] 0;
  mkI "LLILF" F_RIL_a [reg_4_U; imm_32_S] 0;
  mkI "LLILH" F_RI_a [reg_4_U; imm_16_S] 0;
  mkI "LLILL" F_RI_a [reg_4_U; imm_16_S] 0;
  mkI "LLGTR" F_RRE [reg_4_U; reg_4_U] 0;
  mkI "LLGT" F_RXY_a [reg_4_U; dxb_20_4x4_S] 0;
  mkI "LLGTAT" F_RXY_a [reg_4_U; dxb_20_4x4_S] 0;
  mkI "LM" F_RS_a [reg_4_U; reg_4_U; db_12_4_U] 0;
  mkI "LMY" F_RSY_a [reg_4_U; reg_4_U; db_20_4_S] 0;
  mkI "LMG" F_RSY_a [reg_4_U; reg_4_U; db_20_4_S] 0;
  mkI "LMD" F_SS_e [reg_4_U; reg_4_U; db_12_4_U; db_12_4_U] 0;
  mkI "LMH" F_RSY_a [reg_4_U; reg_4_U; db_20_4_S] 0;
  mkI "LNR" F_RR [reg_4_U; reg_4_U] 0;
  mkI "LNGR" F_RRE [reg_4_U; reg_4_U] 0;
  mkI "LNGFR" F_RRE [reg_4_U; reg_4_U] 0;
  mkI "LOCFHR" F_RRF_c [reg_4_U; reg_4_U; mask_4_U] 0;
  mkI "LOCFH" F_RSY_b [reg_4_U; db_20_4_S; mask_4_U] 0;
  mkI "LOCR" F_RRF_c [reg_4_U; reg_4_U; mask_4_U] 0;
  mkI "LOCGR" F_RRF_c [reg_4_U; reg_4_U; mask_4_U] 0;
  mkI "LOC" F_RSY_b [reg_4_U; db_20_4_S; mask_4_U] 0;
  mkI "LOCG" F_RSY_b [reg_4_U; db_20_4_S; mask_4_U] 0;
  mkI "LPD" F_SSF [reg_4_U; db_12_4_U; db_12_4_U] 0;
  mkI "LPDG" F_SSF [reg_4_U; db_12_4_U; db_12_4_U] 0;
  mkI "LPQ" F_RXY_a [reg_4_U; dxb_20_4x4_S] 0;
  mkI "LPR" F_RR [reg_4_U; reg_4_U] 0;
  mkI "LPGR" F_RRE [reg_4_U; reg_4_U] 0;
  mkI "LPGFR" F_RRE [reg_4_U; reg_4_U] 0;
  mkI "LRVR" F_RRE [reg_4_U; reg_4_U] 0;
  mkI "LRVGR" F_RRE [reg_4_U; reg_4_U] 0;
  mkI "LRVH" F_RXY_a [reg_4_U; dxb_20_4x4_S] 0;
  mkI "LRV" F_RXY_a [reg_4_U; dxb_20_4x4_S] 0;
  mkI "LRVG" F_RXY_a [reg_4_U; dxb_20_4x4_S] 0;
  mkI "MC" F_SI [db_12_4_U; imm_8_S] 0;
  mkI "MVC" F_SS_a [db_12_8x4L_U; db_12_4_U] 0;
  mkI "MVCRL" F_SSE [db_12_4_U; db_12_4_U] 0;
  mkI "MVHHI" F_SIL [db_12_4_U; imm_16_S] 0;
  mkI "MVHI" F_SIL [db_12_4_U; imm_16_S] 0;
  mkI "MVGHI" F_SIL [db_12_4_U; imm_16_S] 0;
  mkI "MVI" F_SI [db_12_4_U; imm_8_U] 0;
  mkI "MVIY" F_SIY [db_12_4_U; imm_8_U] 0;
  mkI "MVCIN" F_SS_a [db_12_8x4L_U; db_12_4_U] 0;
  mkI "MVCL" F_RR [reg_4_U; reg_4_U] 0;
  mkI "MVCLE" F_RS_a [reg_4_U; reg_4_U; db_12_4_U] 0;
  mkI "MVCLU" F_RSY_a [reg_4_U; reg_4_U; db_20_4_S] 0;
  mkI "MVN" F_SS_a [db_12_8x4L_U; db_12_4_U] 0;
  mkI "MVST" F_RRE [reg_4_U; reg_4_U] 0;
  mkI "MVO" F_SS_b [db_12_4x4L_U; db_12_4x4L_U] 0;
  mkI "MVZ" F_SS_a [db_12_8x4L_U; db_12_4_U] 0;
  mkI "MR" F_RR [reg_4_U; reg_4_U] 0;
  mkI "MGRK" F_RRF_a [reg_4_U; reg_4_U; reg_4_U] 0;
  mkI "M" F_RX_a [reg_4_U; dxb_12_4x4_U] 0;
  mkI "MFY" F_RXY_a [reg_4_U; dxb_20_4x4_S] 0;
  mkI "MG" F_RXY_a [reg_4_U; dxb_20_4x4_S] 0;
  mkI "MH" F_RX_a [reg_4_U; dxb_12_4x4_U] 0;
  mkI "MHY" F_RXY_a [reg_4_U; dxb_20_4x4_S] 0;
  mkI "MGH" F_RXY_a [reg_4_U; dxb_20_4x4_S] 0;
  mkI "MHI" F_RI_a [reg_4_U; imm_16_S] 0;
  mkI "MGHI" F_RI_a [reg_4_U; imm_16_S] 0;
  mkI "MLR" F_RRE [reg_4_U; reg_4_U] 0;
  mkI "MLGR" F_RRE [reg_4_U; reg_4_U] 0;
  mkI "ML" F_RXY_a [reg_4_U; dxb_20_4x4_S] 0;
  mkI "MLG" F_RXY_a [reg_4_U; dxb_20_4x4_S] 0;
  mkI "MSR" F_RRE [reg_4_U; reg_4_U] 0;
  mkI "MSRKC" F_RRF_a [reg_4_U; reg_4_U; reg_4_U] 0;
  mkI "MSGR" F_RRE [reg_4_U; reg_4_U] 0;
  mkI "MSGRKC" F_RRF_a [reg_4_U; reg_4_U; reg_4_U] 0;
  mkI "MSGFR" F_RRE [reg_4_U; reg_4_U] 0;
  mkI "MS" F_RX_a [reg_4_U; dxb_12_4x4_U] 0;
  mkI "MSC" F_RXY_a [reg_4_U; dxb_20_4x4_S] 0;
  mkI "MSY" F_RXY_a [reg_4_U; dxb_20_4x4_S] 0;
  mkI "MSG" F_RXY_a [reg_4_U; dxb_20_4x4_S] 0;
  mkI "MSGC" F_RXY_a [reg_4_U; dxb_20_4x4_S] 0;
  mkI "MSGF" F_RXY_a [reg_4_U; dxb_20_4x4_S] 0;
  mkI "MSFI" F_RIL_a [reg_4_U; imm_32_S] 0;
  mkI "MSGFI" F_RIL_a [reg_4_U; imm_32_S] 0;
  mkI "NIAI" F_IE [imm_4_U; imm_4_U] 0;
  mkI "NTSTG" F_RXY_a [reg_4_U; dxb_20_4x4_S] 0;
  mkI "NCGRK" F_RRF_a [reg_4_U; reg_4_U; reg_4_U] 0;
  mkI "NCRK" F_RRF_a [reg_4_U; reg_4_U; reg_4_U] 0;
  mkI "NNRK" F_RRF_a [reg_4_U; reg_4_U; reg_4_U] 0;
  mkI "NNGRK" F_RRF_a [reg_4_U; reg_4_U; reg_4_U] 0;
  mkI "NOGRK" F_RRF_a [reg_4_U; reg_4_U; reg_4_U] 0;
  mkI "NORK" F_RRF_a [reg_4_U; reg_4_U; reg_4_U] 0;
  mkI "NXRK" F_RRF_a [reg_4_U; reg_4_U; reg_4_U] 0;
  mkI "NXGRK" F_RRF_a [reg_4_U; reg_4_U; reg_4_U] 0;
  mkI "OR" F_RR [reg_4_U; reg_4_U] 0;
  mkI "OGR" F_RRE [reg_4_U; reg_4_U] 0;
  mkI "ORK" F_RRF_a [reg_4_U; reg_4_U; reg_4_U] 0;
  mkI "OCGRK" F_RRF_a [reg_4_U; reg_4_U; reg_4_U] 0;
  mkI "OCRK" F_RRF_a [reg_4_U; reg_4_U; reg_4_U] 0;
  mkI "OGRK" F_RRF_a [reg_4_U; reg_4_U; reg_4_U] 0;
  mkI "O" F_RX_a [reg_4_U; dxb_12_4x4_U] 0;
  mkI "OY" F_RXY_a [reg_4_U; dxb_20_4x4_S] 0;
  mkI "OG" F_RXY_a [reg_4_U; dxb_20_4x4_S] 0;
  mkI "OI" F_SI [db_12_4_U; imm_8_U] 0;
  mkI "OIY" F_SIY [db_20_4_S; imm_8_U] 0;
  mkI "OC" F_SS_a [db_12_8x4L_U; db_12_4_U] 0;
  mkI "OIHF" F_RIL_a [reg_4_U; imm_32_S] 0;
  mkI "OIHH" F_RI_a [reg_4_U; imm_16_S] 0;
  mkI "OIHL" F_RI_a [reg_4_U; imm_16_S] 0;
  mkI "OILF" F_RIL_a [reg_4_U; imm_32_S] 0;
  mkI "OILH" F_RI_a [reg_4_U; imm_16_S] 0;
  mkI "OILL" F_RI_a [reg_4_U; imm_16_S] 0;
  mkI "PACK" F_SS_b [db_12_4x4L_U; db_12_4x4L_U] 0;
  mkI "PKA" F_SS_f [db_12_4_U; db_12_8x4L_U] 0;
  mkI "PKU" F_SS_f [db_12_4_U; db_12_8x4L_U] 0;
  mkI "PCC" F_RRE [] 0;
  mkI "PLO" F_SS_e [reg_4_U; db_12_4_U; reg_4_U; db_12_4_U] 0;
  mkI "PPA" F_RRF_c [reg_4_U; reg_4_U; mask_4_U] 0;
  mkI "PRNO" F_RRE [reg_4_U; reg_4_U] 0;
  mkI "PPNO" F_RRE [reg_4_U; reg_4_U] 0;
  mkI "POPCNT" F_RRF_c [reg_4_U; reg_4_U; mask_4_U] 1;
  mkI "PFD" F_RXY_b [mask_4_U; dxb_20_4x4_S] 0;
  mkI "PFDRL" F_RIL_c [mask_4_U; reg_imm_32_S] 0;
  mkI "RLL" F_RSY_a [reg_4_U; reg_4_U; db_20_4_S] 0;
  mkI "RLLG" F_RSY_a [reg_4_U; reg_4_U; db_20_4_S] 0;
  mkI "RNSBG" F_RIE_f [reg_4_U; reg_4_U; imm_8_S; imm_8_S; imm_8_S] 1;
  mkI "RXSBG" F_RIE_f [reg_4_U; reg_4_U; imm_8_S; imm_8_S; imm_8_S] 1;
  mkI "ROSBG" F_RIE_f [reg_4_U; reg_4_U; imm_8_S; imm_8_S; imm_8_S] 1;
  mkI "RISBG" F_RIE_f [reg_4_U; reg_4_U; imm_8_S; imm_8_S; imm_8_S] 1;
  mkI "RISBGN" F_RIE_f [reg_4_U; reg_4_U; imm_8_S; imm_8_S; imm_8_S] 1;
  mkI "RISBHG" F_RIE_f [reg_4_U; reg_4_U; imm_8_S; imm_8_S; imm_8_S] 1;
  mkI "RISBLG" F_RIE_f [reg_4_U; reg_4_U; imm_8_S; imm_8_S; imm_8_S] 1;
  mkI "RNSBGT" F_RIE_f [reg_4_U; reg_4_U; imm_8_S; imm_8_S; imm_8_S] 1;
  mkI "RXSBGT" F_RIE_f [reg_4_U; reg_4_U; imm_8_S; imm_8_S; imm_8_S] 1;
  mkI "ROSBGT" F_RIE_f [reg_4_U; reg_4_U; imm_8_S; imm_8_S; imm_8_S] 1;
  mkI "RISBGZ" F_RIE_f [reg_4_U; reg_4_U; imm_8_S; imm_8_S; imm_8_S] 1;
  mkI "RISBGNZ" F_RIE_f [reg_4_U; reg_4_U; imm_8_S; imm_8_S; imm_8_S] 1;
  mkI "RISBHGZ" F_RIE_f [reg_4_U; reg_4_U; imm_8_S; imm_8_S; imm_8_S] 1;
  mkI "RISBLGZ" F_RIE_f [reg_4_U; reg_4_U; imm_8_S; imm_8_S; imm_8_S] 1;
  mkI "SRST" F_RRE [reg_4_U; reg_4_U] 0;
  mkI "SRSTU" F_RRE [reg_4_U; reg_4_U] 0;
  mkI "SAR" F_RRE [reg_4_U; reg_4_U] 0;
  mkI "SAM24" F_E [] 0;
  mkI "SAM31" F_E [] 0;
  mkI "SAM64" F_E [] 0;
  mkI "SPM" F_RR [reg_4_U] 0;
  mkI "SLDA" F_RS_a [reg_4_U; db_12_4_U] 0;
  mkI "SLA" F_RS_a [reg_4_U; db_12_4_U] 0;
  mkI "SLAK" F_RSY_a [reg_4_U; reg_4_U; db_20_4_S] 0;
  mkI "SLAG" F_RSY_a [reg_4_U; reg_4_U; db_20_4_S] 0;
  mkI "SLDL" F_RS_a [reg_4_U; db_12_4_U] 0;
  mkI "SLL" F_RS_a [reg_4_U; db_12_4_U] 0;
  mkI "SLLK" F_RSY_a [reg_4_U; reg_4_U; db_20_4_S] 0;
  mkI "SLLG" F_RSY_a [reg_4_U; reg_4_U; db_20_4_S] 0;
  mkI "SRDA" F_RS_a [reg_4_U; db_12_4_U] 0;
  mkI "SRDL" F_RS_a [reg_4_U; db_12_4_U] 0;
  mkI "SRA" F_RS_a [reg_4_U; db_12_4_U] 0;
  mkI "SRAK" F_RSY_a [reg_4_U; reg_4_U; db_20_4_S] 0;
  mkI "SRAG" F_RSY_a [reg_4_U; reg_4_U; db_20_4_S] 0;
  mkI "SRL" F_RS_a [reg_4_U; db_12_4_U] 0;
  mkI "SRLK" F_RSY_a [reg_4_U; reg_4_U; db_20_4_S] 0;
  mkI "SRLG" F_RSY_a [reg_4_U; reg_4_U; db_20_4_S] 0;
  mkI "ST" F_RX_a [reg_4_U; dxb_12_4x4_U] 0;
  mkI "STY" F_RXY_a [reg_4_U; dxb_20_4x4_S] 0;
  mkI "STG" F_RXY_a [reg_4_U; dxb_20_4x4_S] 0;
  mkI "STRL" F_RIL_b [reg_4_U; reg_imm_32_S] 0;
  mkI "STGRL" F_RIL_b [reg_4_U; reg_imm_32_S] 0;
  mkI "STAM" F_RS_a [reg_4_U; reg_4_U; db_12_4_U] 0;
  mkI "STAMY" F_RSY_a [reg_4_U; reg_4_U; db_20_4_S] 0;
  mkI "STC" F_RX_a [reg_4_U; dxb_12_4x4_U] 0;
  mkI "STCY" F_RXY_a [reg_4_U; dxb_20_4x4_S] 0;
  mkI "STCH" F_RXY_a [reg_4_U; dxb_20_4x4_S] 0;
  mkI "STCM" F_RS_b [reg_4_U; mask_4_U; db_12_4_U] 0;
  mkI "STCMY" F_RSY_b [reg_4_U; mask_4_U; db_20_4_S] 0;
  mkI "STCMH" F_RSY_b [reg_4_U; mask_4_U; db_20_4_S] 0;
  mkI "STCK" F_S [db_12_4_U] 0;
  mkI "STCKF" F_S [db_12_4_U] 0;
  mkI "STCKE" F_S [db_12_4_U] 0;
  mkI "STFLE" F_S [db_20_4_S] 0;
  mkI "STGSC" F_RXY_a [reg_4_U; dxb_20_4x4_S] 0;
  mkI "STH" F_RX_a [reg_4_U; dxb_12_4x4_U] 0;
  mkI "STHY" F_RXY_a [reg_4_U; dxb_20_4x4_S] 0;
  mkI "STHRL" F_RIL_b [reg_4_U; reg_imm_32_S] 0;
  mkI "STHH" F_RXY_a [reg_4_U; dxb_20_4x4_S] 0;
  mkI "STFH" F_RXY_a [reg_4_U; dxb_20_4x4_S] 0;
  mkI "STM" F_RS_a [reg_4_U; reg_4_U; db_12_4_U] 0;
  mkI "STMY" F_RSY_a [reg_4_U; reg_4_U; db_20_4_S] 0;
  mkI "STMG" F_RSY_a [reg_4_U; reg_4_U; db_20_4_S] 0;
  mkI "STMH" F_RSY_a [reg_4_U; reg_4_U; db_20_4_S] 0;
  mkI "STOC" F_RSY_b [reg_4_U; db_20_4_S; mask_4_U] 0;
  mkI "STOCG" F_RSY_b [reg_4_U; db_20_4_S; mask_4_U] 0;
  mkI "STOCFH" F_RSY_b [reg_4_U; db_20_4_S; mask_4_U] 0;
  mkI "STPQ" F_RXY_a [reg_4_U; dxb_20_4x4_S] 0;
  mkI "STRVH" F_RXY_a [reg_4_U; dxb_20_4x4_S] 0;
  mkI "STRV" F_RXY_a [reg_4_U; dxb_20_4x4_S] 0;
  mkI "STRVG" F_RXY_a [reg_4_U; dxb_20_4x4_S] 0;
  mkI "SR" F_RR [reg_4_U; reg_4_U] 0;
  mkI "SGR" F_RRE [reg_4_U; reg_4_U] 0;
  mkI "SGFR" F_RRE [reg_4_U; reg_4_U] 0;
  mkI "SRK" F_RRF_a [reg_4_U; reg_4_U; reg_4_U] 0;
  mkI "SGRK" F_RRF_a [reg_4_U; reg_4_U; reg_4_U] 0;
  mkI "S" F_RX_a [reg_4_U; dxb_12_4x4_U] 0;
  mkI "SY" F_RXY_a [reg_4_U; dxb_20_4x4_S] 0;
  mkI "SG" F_RXY_a [reg_4_U; dxb_20_4x4_S] 0;
  mkI "SGF" F_RXY_a [reg_4_U; dxb_20_4x4_S] 0;
  mkI "SH" F_RX_a [reg_4_U; dxb_12_4x4_U] 0;
  mkI "SHY" F_RXY_a [reg_4_U; dxb_20_4x4_S] 0;
  mkI "SGH" F_RXY_a [reg_4_U; dxb_20_4x4_S] 0;
  mkI "SHHHR" F_RRF_a [reg_4_U; reg_4_U; reg_4_U] 0;
  mkI "SHHLR" F_RRF_a [reg_4_U; reg_4_U; reg_4_U] 0;
  mkI "SLR" F_RR [reg_4_U; reg_4_U] 0;
  mkI "SLGR" F_RRE [reg_4_U; reg_4_U] 0;
  mkI "SLGFR" F_RRE [reg_4_U; reg_4_U] 0;
  mkI "SLRK" F_RRF_a [reg_4_U; reg_4_U; reg_4_U] 0;
  mkI "SLGRK" F_RRF_a [reg_4_U; reg_4_U; reg_4_U] 0;
  mkI "SL" F_RX_a [reg_4_U; dxb_12_4x4_U] 0;
  mkI "SLY" F_RXY_a [reg_4_U; dxb_20_4x4_S] 0;
  mkI "SLG" F_RXY_a [reg_4_U; dxb_20_4x4_S] 0;
  mkI "SLGF" F_RXY_a [reg_4_U; dxb_20_4x4_S] 0;
  mkI "SLFI" F_RIL_a [reg_4_U; imm_32_S] 0;
  mkI "SLGFI" F_RIL_a [reg_4_U; imm_32_S] 0;
  mkI "SLHHHR" F_RRF_a [reg_4_U; reg_4_U; reg_4_U] 0;
  mkI "SLHHLR" F_RRF_a [reg_4_U; reg_4_U; reg_4_U] 0;
  mkI "SLBR" F_RRE [reg_4_U; reg_4_U] 0;
  mkI "SLBGR" F_RRE [reg_4_U; reg_4_U] 0;
  mkI "SLB" F_RXY_a [reg_4_U; dxb_20_4x4_S] 0;
  mkI "SLBG" F_RXY_a [reg_4_U; dxb_20_4x4_S] 0;
  mkI "SVC" F_I [imm_8_U] 0;
  mkI "TS" F_SI [db_12_4_U] 0;
  mkI "TAM" F_E [] 0;
  mkI "TM" F_SI [db_12_4_U; imm_8_U] 0;
  mkI "TMY" F_SIY [db_20_4_S; imm_8_U] 0;
  mkI "TMHH" F_RI_a [reg_4_U; imm_16_U] 0;
  mkI "TMHL" F_RI_a [reg_4_U; imm_16_U] 0;
  mkI "TMH" F_RI_a [reg_4_U; imm_16_U] 0;
  mkI "TMLH" F_RI_a [reg_4_U; imm_16_U] 0;
  mkI "TML" F_RI_a [reg_4_U; imm_16_U] 0;
  mkI "TMLL" F_RI_a [reg_4_U; imm_16_U] 0;
  mkI "TABORT" F_S [db_12_4_U] 0;
  mkI "TBEGIN" F_SIL [db_12_4_U; imm_16_S] 0;
  mkI "TBEGINC" F_SIL [db_12_4_U; imm_16_S] 0;
  mkI "TEND" F_S [] 0;
  mkI "TR" F_SS_a [db_12_8x4L_U; db_12_4_U] 0;
  mkI "TRT" F_SS_a [db_12_8x4L_U; db_12_4_U] 0;
  mkI "TRTE" F_RRF_c [reg_4_U; reg_4_U; mask_4_U] 1;
  mkI "TRTRE" F_RRF_c [reg_4_U; reg_4_U; mask_4_U] 1;
  mkI "TRTR" F_SS_a [db_12_8x4L_U; db_12_4_U] 0;
  mkI "TRE" F_RRE [reg_4_U; reg_4_U] 0;
  mkI "TROO" F_RRF_c [reg_4_U; reg_4_U; mask_4_U] 1;
  mkI "TROT" F_RRF_c [reg_4_U; reg_4_U; mask_4_U] 1;
  mkI "TRTO" F_RRF_c [reg_4_U; reg_4_U; mask_4_U] 1;
  mkI "TRTT" F_RRF_c [reg_4_U; reg_4_U; mask_4_U] 1;
  mkI "UNPK" F_SS_b [db_12_4x4L_U; db_12_4x4L_U] 0;
  mkI "UNPKA" F_SS_a [db_12_8x4L_U; db_12_4_U] 0;
  mkI "UNPKU" F_SS_a [db_12_8x4L_U; db_12_4_U] 0;
  mkI "UPT" F_E [] 0;
  mkI "AP" F_SS_b [db_12_4x4L_U; db_12_4x4L_U] 0;
  mkI "CP" F_SS_b [db_12_4x4L_U; db_12_4x4L_U] 0;
  mkI "DP" F_SS_b [db_12_4x4L_U; db_12_4x4L_U] 0;
  mkI "DFLTCC" F_RRF_a [reg_4_U; reg_4_U; reg_4_U] 0;
  mkI "ED" F_SS_a [db_12_8x4L_U; db_12_4_U] 0;
  mkI "EDMK" F_SS_a [db_12_8x4L_U; db_12_4_U] 0;
  mkI "SRP" F_SS_c [db_12_4x4L_U; db_12_4_U; imm_4_U] 0;
  mkI "MP" F_SS_b [db_12_4x4L_U; db_12_4x4L_U] 0;
  mkI "SP" F_SS_b [db_12_4x4L_U; db_12_4x4L_U] 0;
  mkI "TP" F_RSL_a [db_12_4x4L_U] 0;
  mkI "ZAP" F_SS_b [db_12_4x4L_U; db_12_4x4L_U] 0;
  mkI "THDR" F_RRE [reg_4_U; reg_4_U] 0;
  mkI "THDER" F_RRE [reg_4_U; reg_4_U] 0;
  mkI "TBEDR" F_RRF_e [reg_4_U; mask_4_U; reg_4_U] 0;
  mkI "TBDR" F_RRF_e [reg_4_U; mask_4_U; reg_4_U] 0;
  mkI "CPSDR" F_RRF_b [reg_4_U; reg_4_U; reg_4_U] 0;
  mkI "EFPC" F_RRE [reg_4_U] 0;
  mkI "LER" F_RR [reg_4_U; reg_4_U] 0;
  mkI "LDR" F_RR [reg_4_U; reg_4_U] 0;
  mkI "LXR" F_RRE [reg_4_U; reg_4_U] 0;
  mkI "LE" F_RX_a [reg_4_U; dxb_12_4x4_U] 0;
  mkI "LD" F_RX_a [reg_4_U; dxb_12_4x4_U] 0;
  mkI "LEY" F_RXY_a [reg_4_U; dxb_20_4x4_S] 0;
  mkI "LDY" F_RXY_a [reg_4_U; dxb_20_4x4_S] 0;
  mkI "LCDFR" F_RRE [reg_4_U; reg_4_U] 0;
  mkI "LFPC" F_S [db_12_4_U] 0;
  mkI "LFAS" F_S [db_12_4_U] 0;
  mkI "LDGR" F_RRE [reg_4_U; reg_4_U] 0;
  mkI "LGDR" F_RRE [reg_4_U; reg_4_U] 0;
  mkI "LNDFR" F_RRE [reg_4_U; reg_4_U] 0;
  mkI "LPDFR" F_RRE [reg_4_U; reg_4_U] 0;
  mkI "LZER" F_RRE [reg_4_U] 0;
  mkI "LZXR" F_RRE [reg_4_U] 0;
  mkI "LZDR" F_RRE [reg_4_U] 0;
  mkI "PFPO" F_E [] 0;
  mkI "SRNM" F_S [db_12_4_U] 0;
  mkI "SRNMB" F_S [db_12_4_U] 0;
  mkI "SRNMT" F_S [db_12_4_U] 0;
  mkI "SFPC" F_RRE [reg_4_U] 0;
  mkI "SFASR" F_RRE [reg_4_U] 0;
  mkI "STE" F_RX_a [reg_4_U; dxb_12_4x4_U] 0;
  mkI "STD" F_RX_a [reg_4_U; dxb_12_4x4_U] 0;
  mkI "STDY" F_RXY_a [reg_4_U; dxb_20_4x4_S] 0;
  mkI "STEY" F_RXY_a [reg_4_U; dxb_20_4x4_S] 0;
  mkI "STFPC" F_S [db_12_4_U] 0;
  mkI "BSA" F_RRE [reg_4_U; reg_4_U] 0;
  mkI "BAKR" F_RRE [reg_4_U; reg_4_U] 0;
  mkI "BSG" F_RRE [reg_4_U; reg_4_U] 0;
  mkI "CRDTE" F_RRF_b [reg_4_U; reg_4_U; reg_4_U; mask_4_U] 1;
  mkI "CSP" F_RRE [reg_4_U; reg_4_U] 0;
  mkI "CSPG" F_RRE [reg_4_U; reg_4_U] 0;
  mkI "ESEA" F_RRE [reg_4_U] 0;
  mkI "EPAR" F_RRE [reg_4_U] 0;
  mkI "EPAIR" F_RRE [reg_4_U] 0;
  mkI "ESAR" F_RRE [reg_4_U] 0;
  mkI "ESAIR" F_RRE [reg_4_U] 0;
  mkI "EREG" F_RRE [reg_4_U; reg_4_U] 0;
  mkI "EREGG" F_RRE [reg_4_U; reg_4_U] 0;
  mkI "ESTA" F_RRE [reg_4_U; reg_4_U] 0;
  mkI "IAC" F_RRE [reg_4_U] 0;
  mkI "IPK" F_S [] 0;
  mkI "IRBM" F_RRE [reg_4_U; reg_4_U] 0;
  mkI "ISK" F_RR [reg_4_U; reg_4_U] 0;
  mkI "ISKE" F_RRE [reg_4_U; reg_4_U] 0;
  mkI "IVSK" F_RRE [reg_4_U; reg_4_U] 0;
  mkI "IDTE" F_RRF_b [reg_4_U; reg_4_U; reg_4_U; mask_4_U] 1;
  mkI "IPTE" F_RRF_a [reg_4_U; reg_4_U; reg_4_U; mask_4_U] 2;
  mkI "LASP" F_SSE [db_12_4_U; db_12_4_U] 0;
  mkI "LCTL" F_RS_a [reg_4_U; reg_4_U; db_12_4_U] 0;
  mkI "LCTLG" F_RSY_a [reg_4_U; reg_4_U; db_20_4_S] 0;
  mkI "LPTEA" F_RRF_b [reg_4_U; reg_4_U; reg_4_U; mask_4_U] 0;
  mkI "LPSW" F_SI [db_12_4_U] 0;
  mkI "LPSWE" F_S [db_12_4_U] 0;
  mkI "LRA" F_RX_a [reg_4_U; dxb_12_4x4_U] 0;
  mkI "LRAY" F_RXY_a [reg_4_U; dxb_20_4x4_S] 0;
  mkI "LRAG" F_RXY_a [reg_4_U; dxb_20_4x4_S] 0;
  mkI "LURA" F_RRE [reg_4_U; reg_4_U] 0;
  mkI "LURAG" F_RRE [reg_4_U; reg_4_U] 0;
  mkI "MSTA" F_RRE [reg_4_U] 0;
  mkI "MVPG" F_RRE [reg_4_U; reg_4_U] 0;
  mkI "MVCP" F_SS_d [drb_12_4x4_U; db_12_4_U; reg_4_U] 0;
  mkI "MVCS" F_SS_d [drb_12_4x4_U; db_12_4_U; reg_4_U] 0;
  mkI "MVCDK" F_SSE [db_12_4_U; db_12_4_U] 0;
  mkI "MVCK" F_SS_d [drb_12_4x4_U; db_12_4_U; reg_4_U] 0;
  mkI "MVCOS" F_SSF [db_12_4_U; db_12_4_U; reg_4_U] 0;
  mkI "MVCSK" F_SSE [db_12_4_U; db_12_4_U] 0;
  mkI "PGIN" F_RRE [reg_4_U; reg_4_U] 0;
  mkI "PGOUT" F_RRE [reg_4_U; reg_4_U] 0;
  mkI "PCKMO" F_RRE [] 0;
  mkI "PFMF" F_RRE [reg_4_U; reg_4_U] 0;
  mkI "PTFF" F_E [] 0;
  mkI "PTF" F_RRE [reg_4_U] 0;
  mkI "PC" F_S [db_12_4_U] 0;
  mkI "PR" F_E [] 0;
  mkI "PTI" F_RRE [reg_4_U; reg_4_U] 0;
  mkI "PT" F_RRE [reg_4_U; reg_4_U] 0;
  mkI "PALB" F_RRE [] 0;
  mkI "PTLB" F_S [] 0;
  mkI "RRBE" F_RRE [reg_4_U; reg_4_U] 0;
  mkI "RRBM" F_RRE [reg_4_U; reg_4_U] 0;
  mkI "RP" F_S [db_12_4_U] 0;
  mkI "SAC" F_S [db_12_4_U] 0;
  mkI "SACF" F_S [db_12_4_U] 0;
  mkI "SCK" F_S [db_12_4_U] 0;
  mkI "SCKC" F_S [db_12_4_U] 0;
  mkI "SCKPF" F_E [] 0;
  mkI "SPX" F_S [db_12_4_U] 0;
  mkI "SPT" F_S [db_12_4_U] 0;
  mkI "SPKA" F_S [db_12_4_U] 0;
  mkI "SSAR" F_RRE [reg_4_U] 0;
  mkI "SSAIR" F_RRE [reg_4_U] 0;
  mkI "SSK" F_RR [reg_4_U; reg_4_U] 0;
  mkI "SSKE" F_RRF_c [reg_4_U; reg_4_U; mask_4_U] 1;
  mkI "SSM" F_SI [db_12_4_U] 0;
  mkI "SIGP" F_RS_a [reg_4_U; reg_4_U; db_12_4_U] 0;
  mkI "STCKC" F_S [db_12_4_U] 0;
  mkI "STCTL" F_RS_a [reg_4_U; reg_4_U; db_12_4_U] 0;
  mkI "STCTG" F_RSY_a [reg_4_U; reg_4_U; db_20_4_S] 0;
  mkI "STAP" F_S [db_12_4_U] 0;
  mkI "STIDP" F_S [db_12_4_U] 0;
  mkI "STPT" F_S [db_12_4_U] 0;
  mkI "STFL" F_S [db_12_4_U] 0;
  mkI "STPX" F_S [db_12_4_U] 0;
  mkI "STRAG" F_SSE [db_12_4_U; db_12_4_U] 0;
  mkI "STSI" F_S [db_12_4_U] 0;
  mkI "STOSM" F_SI [db_12_4_U; imm_8_S] 0;
  mkI "STNSM" F_SI [db_12_4_U; imm_8_S] 0;
  mkI "STURA" F_RRE [reg_4_U; reg_4_U] 0;
  mkI "STURG" F_RRE [reg_4_U; reg_4_U] 0;
  mkI "TAR" F_RRE [reg_4_U; reg_4_U] 0;
  mkI "TB" F_RRE [reg_4_U; reg_4_U] 0;
  mkI "TPEI" F_RRE [reg_4_U; reg_4_U] 0;
  mkI "TPROT" F_SSE [db_12_4_U; db_12_4_U] 0;
  mkI "TRACE" F_RS_a [reg_4_U; reg_4_U; db_12_4_U] 0;
  mkI "TRACG" F_RSY_a [reg_4_U; reg_4_U; db_20_4_S] 0;
  mkI "TRAP2" F_E [] 0;
  mkI "TRAP4" F_S [db_12_4_U] 0;
  mkI "XSCH" F_S [] 0;
  mkI "CSCH" F_S [] 0;
  mkI "HSCH" F_S [] 0;
  mkI "MSCH" F_S [db_12_4_U] 0;
  mkI "RCHP" F_S [] 0;
  mkI "RSCH" F_S [] 0;
  mkI "SAL" F_S [] 0;
  mkI "SCHM" F_S [] 0;
  mkI "SSCH" F_S [db_12_4_U] 0;
  mkI "STCPS" F_S [db_12_4_U] 0;
  mkI "STCRW" F_S [db_12_4_U] 0;
  mkI "STSCH" F_S [db_12_4_U] 0;
  mkI "TPI" F_S [db_12_4_U] 0;
  mkI "TSCH" F_S [db_12_4_U] 0;
  mkI "AER" F_RR [reg_4_U; reg_4_U] 0;
  mkI "ADR" F_RR [reg_4_U; reg_4_U] 0;
  mkI "AXR" F_RR [reg_4_U; reg_4_U] 0;
  mkI "AE" F_RX_a [reg_4_U; dxb_12_4x4_U] 0;
  mkI "AD" F_RX_a [reg_4_U; dxb_12_4x4_U] 0;
  mkI "AWR" F_RR [reg_4_U; reg_4_U] 0;
  mkI "AUR" F_RR [reg_4_U; reg_4_U] 0;
  mkI "AU" F_RX_a [reg_4_U; dxb_12_4x4_U] 0;
  mkI "AW" F_RX_a [reg_4_U; dxb_12_4x4_U] 0;
  mkI "CER" F_RR [reg_4_U; reg_4_U] 0;
  mkI "CDR" F_RR [reg_4_U; reg_4_U] 0;
  mkI "CXR" F_RRE [reg_4_U; reg_4_U] 0;
  mkI "CE" F_RX_a [reg_4_U; dxb_12_4x4_U] 0;
  mkI "CD" F_RX_a [reg_4_U; dxb_12_4x4_U] 0;
  mkI "CEFR" F_RRE [reg_4_U; reg_4_U] 0;
  mkI "CDFR" F_RRE [reg_4_U; reg_4_U] 0;
  mkI "CXFR" F_RRE [reg_4_U; reg_4_U] 0;
  mkI "CEGR" F_RRE [reg_4_U; reg_4_U] 0;
  mkI "CDGR" F_RRE [reg_4_U; reg_4_U] 0;
  mkI "CXGR" F_RRE [reg_4_U; reg_4_U] 0;
  mkI "CFER" F_RRF_e [reg_4_U; mask_4_U; reg_4_U] 0;
  mkI "CFDR" F_RRF_e [reg_4_U; mask_4_U; reg_4_U] 0;
  mkI "CFXR" F_RRF_e [reg_4_U; mask_4_U; reg_4_U] 0;
  mkI "CGER" F_RRF_e [reg_4_U; mask_4_U; reg_4_U] 0;
  mkI "CGDR" F_RRF_e [reg_4_U; mask_4_U; reg_4_U] 0;
  mkI "CGXR" F_RRF_e [reg_4_U; mask_4_U; reg_4_U] 0;
  mkI "DDR" F_RR [reg_4_U; reg_4_U] 0;
  mkI "DER" F_RR [reg_4_U; reg_4_U] 0;
  mkI "DXR" F_RRE [reg_4_U; reg_4_U] 0;
  mkI "DD" F_RX_a [reg_4_U; dxb_12_4x4_U] 0;
  mkI "DE" F_RX_a [reg_4_U; dxb_12_4x4_U] 0;
  mkI "HDR" F_RR [reg_4_U; reg_4_U] 0;
  mkI "HER" F_RR [reg_4_U; reg_4_U] 0;
  mkI "LTER" F_RR [reg_4_U; reg_4_U] 0;
  mkI "LTDR" F_RR [reg_4_U; reg_4_U] 0;
  mkI "LTXR" F_RRE [reg_4_U; reg_4_U] 0;
  mkI "LCER" F_RR [reg_4_U; reg_4_U] 0;
  mkI "LCDR" F_RR [reg_4_U; reg_4_U] 0;
  mkI "LCXR" F_RRE [reg_4_U; reg_4_U] 0;
  mkI "FIER" F_RRE [reg_4_U; reg_4_U] 0;
  mkI "FIDR" F_RRE [reg_4_U; reg_4_U] 0;
  mkI "FIXR" F_RRE [reg_4_U; reg_4_U] 0;
  mkI "LDER" F_RRE [reg_4_U; reg_4_U] 0;
  mkI "LXDR" F_RRE [reg_4_U; reg_4_U] 0;
  mkI "LXER" F_RRE [reg_4_U; reg_4_U] 0;
  mkI "LDE" F_RXE [reg_4_U; dxb_12_4x4_U] 0;
  mkI "LXD" F_RXE [reg_4_U; dxb_12_4x4_U] 0;
  mkI "LXE" F_RXE [reg_4_U; dxb_12_4x4_U] 0;
  mkI "LNDR" F_RR [reg_4_U; reg_4_U] 0;
  mkI "LNER" F_RR [reg_4_U; reg_4_U] 0;
  mkI "LPDR" F_RR [reg_4_U; reg_4_U] 0;
  mkI "LPER" F_RR [reg_4_U; reg_4_U] 0;
  mkI "LNXR" F_RRE [reg_4_U; reg_4_U] 0;
  mkI "LPXR" F_RRE [reg_4_U; reg_4_U] 0;
  mkI "LEDR" F_RR [reg_4_U; reg_4_U] 0;
  mkI "LDXR" F_RR [reg_4_U; reg_4_U] 0;
  mkI "LRER" F_RR [reg_4_U; reg_4_U] 0;
  mkI "LRDR" F_RR [reg_4_U; reg_4_U] 0;
  mkI "LEXR" F_RRE [reg_4_U; reg_4_U] 0;
  mkI "MEER" F_RRE [reg_4_U; reg_4_U] 0;
  mkI "MDR" F_RR [reg_4_U; reg_4_U] 0;
  mkI "MXR" F_RR [reg_4_U; reg_4_U] 0;
  mkI "MDER" F_RR [reg_4_U; reg_4_U] 0;
  mkI "MER" F_RR [reg_4_U; reg_4_U] 0;
  mkI "MXDR" F_RR [reg_4_U; reg_4_U] 0;
  mkI "MEE" F_RXE [reg_4_U; dxb_12_4x4_U] 0;
  mkI "MD" F_RX_a [reg_4_U; dxb_12_4x4_U] 0;
  mkI "MDE" F_RX_a [reg_4_U; dxb_12_4x4_U] 0;
  mkI "MXD" F_RX_a [reg_4_U; dxb_12_4x4_U] 0;
  mkI "ME" F_RX_a [reg_4_U; dxb_12_4x4_U] 0;
  mkI "MAER" F_RRD [reg_4_U; reg_4_U; reg_4_U] 0;
  mkI "MADR" F_RRD [reg_4_U; reg_4_U; reg_4_U] 0;
  mkI "MAD" F_RXF [reg_4_U; reg_4_U; dxb_12_4x4_U] 0;
  mkI "MAE" F_RXF [reg_4_U; reg_4_U; dxb_12_4x4_U] 0;
  mkI "MSER" F_RRD [reg_4_U; reg_4_U; reg_4_U] 0;
  mkI "MSDR" F_RRD [reg_4_U; reg_4_U; reg_4_U] 0;
  mkI "MSE" F_RXF [reg_4_U; reg_4_U; dxb_12_4x4_U] 0;
  mkI "MSD" F_RXF [reg_4_U; reg_4_U; dxb_12_4x4_U] 0;
  mkI "MAYR" F_RRD [reg_4_U; reg_4_U; reg_4_U] 0;
  mkI "MAYHR" F_RRD [reg_4_U; reg_4_U; reg_4_U] 0;
  mkI "MAYLR" F_RRD [reg_4_U; reg_4_U; reg_4_U] 0;
  mkI "MAY" F_RXF [reg_4_U; reg_4_U; dxb_12_4x4_U] 0;
  mkI "MAYH" F_RXF [reg_4_U; reg_4_U; dxb_12_4x4_U] 0;
  mkI "MAYL" F_RXF [reg_4_U; reg_4_U; dxb_12_4x4_U] 0;
  mkI "MYR" F_RRD [reg_4_U; reg_4_U; reg_4_U] 0;
  mkI "MYHR" F_RRD [reg_4_U; reg_4_U; reg_4_U] 0;
  mkI "MYLR" F_RRD [reg_4_U; reg_4_U; reg_4_U] 0;
  mkI "MY" F_RXF [reg_4_U; reg_4_U; dxb_12_4x4_U] 0;
  mkI "MYH" F_RXF [reg_4_U; reg_4_U; dxb_12_4x4_U] 0;
  mkI "MYL" F_RXF [reg_4_U; reg_4_U; dxb_12_4x4_U] 0;
  mkI "SQER" F_RRE [reg_4_U; reg_4_U] 0;
  mkI "SQDR" F_RRE [reg_4_U; reg_4_U] 0;
  mkI "SQXR" F_RRE [reg_4_U; reg_4_U] 0;
  mkI "SQE" F_RXE [reg_4_U; dxb_12_4x4_U] 0;
  mkI "SQD" F_RXE [reg_4_U; dxb_12_4x4_U] 0;
  mkI "SER" F_RR [reg_4_U; reg_4_U] 0;
  mkI "SDR" F_RR [reg_4_U; reg_4_U] 0;
  mkI "SXR" F_RR [reg_4_U; reg_4_U] 0;
  mkI "SE" F_RX_a [reg_4_U; dxb_12_4x4_U] 0;
  mkI "SD" F_RX_a [reg_4_U; dxb_12_4x4_U] 0;
  mkI "SUR" F_RR [reg_4_U; reg_4_U] 0;
  mkI "SWR" F_RR [reg_4_U; reg_4_U] 0;
  mkI "SU" F_RX_a [reg_4_U; dxb_12_4x4_U] 0;
  mkI "SW" F_RX_a [reg_4_U; dxb_12_4x4_U] 0;
  mkI "AEBR" F_RRE [reg_4_U; reg_4_U] 0;
  mkI "ADBR" F_RRE [reg_4_U; reg_4_U] 0;
  mkI "AXBR" F_RRE [reg_4_U; reg_4_U] 0;
  mkI "AEB" F_RXE [reg_4_U; dxb_12_4x4_U] 0;
  mkI "ADB" F_RXE [reg_4_U; dxb_12_4x4_U] 0;
  mkI "CEBR" F_RRE [reg_4_U; reg_4_U] 0;
  mkI "CDBR" F_RRE [reg_4_U; reg_4_U] 0;
  mkI "CXBR" F_RRE [reg_4_U; reg_4_U] 0;
  mkI "CDB" F_RXE [reg_4_U; dxb_12_4x4_U] 0;
  mkI "CEB" F_RXE [reg_4_U; dxb_12_4x4_U] 0;
  mkI "KEBR" F_RRE [reg_4_U; reg_4_U] 0;
  mkI "KDBR" F_RRE [reg_4_U; reg_4_U] 0;
  mkI "KDSA" F_RRE [reg_4_U; reg_4_U] 0;
  mkI "KXBR" F_RRE [reg_4_U; reg_4_U] 0;
  mkI "KDB" F_RXE [reg_4_U; dxb_12_4x4_U] 0;
  mkI "KEB" F_RXE [reg_4_U; dxb_12_4x4_U] 0;
  mkI "CEFBR" F_RRE [reg_4_U; reg_4_U] 0;
  mkI "CDFBR" F_RRE [reg_4_U; reg_4_U] 0;
  mkI "CXFBR" F_RRE [reg_4_U; reg_4_U] 0;
  mkI "CEGBR" F_RRE [reg_4_U; reg_4_U] 0;
  mkI "CDGBR" F_RRE [reg_4_U; reg_4_U] 0;
  mkI "CXGBR" F_RRE [reg_4_U; reg_4_U] 0;
  mkI "CEFBRA" F_RRF_e [reg_4_U; mask_4_U; reg_4_U; mask_4_U] 0;
  mkI "CDFBRA" F_RRF_e [reg_4_U; mask_4_U; reg_4_U; mask_4_U] 0;
  mkI "CXFBRA" F_RRF_e [reg_4_U; mask_4_U; reg_4_U; mask_4_U] 0;
  mkI "CEGBRA" F_RRF_e [reg_4_U; mask_4_U; reg_4_U; mask_4_U] 0;
  mkI "CDGBRA" F_RRF_e [reg_4_U; mask_4_U; reg_4_U; mask_4_U] 0;
  mkI "CXGBRA" F_RRF_e [reg_4_U; mask_4_U; reg_4_U; mask_4_U] 0;
  mkI "CELFBR" F_RRF_e [reg_4_U; mask_4_U; reg_4_U; mask_4_U] 0;
  mkI "CDLFBR" F_RRF_e [reg_4_U; mask_4_U; reg_4_U; mask_4_U] 0;
  mkI "CXLFBR" F_RRF_e [reg_4_U; mask_4_U; reg_4_U; mask_4_U] 0;
  mkI "CELGBR" F_RRF_e [reg_4_U; mask_4_U; reg_4_U; mask_4_U] 0;
  mkI "CDLGBR" F_RRF_e [reg_4_U; mask_4_U; reg_4_U; mask_4_U] 0;
  mkI "CXLGBR" F_RRF_e [reg_4_U; mask_4_U; reg_4_U; mask_4_U] 0;
  mkI "CFEBR" F_RRF_e [reg_4_U; mask_4_U; reg_4_U] 0;
  mkI "CFDBR" F_RRF_e [reg_4_U; mask_4_U; reg_4_U] 0;
  mkI "CFXBR" F_RRF_e [reg_4_U; mask_4_U; reg_4_U] 0;
  mkI "CGEBR" F_RRF_e [reg_4_U; mask_4_U; reg_4_U] 0;
  mkI "CGDBR" F_RRF_e [reg_4_U; mask_4_U; reg_4_U] 0;
  mkI "CGXBR" F_RRF_e [reg_4_U; mask_4_U; reg_4_U] 0;
  mkI "CFEBRA" F_RRF_e [reg_4_U; mask_4_U; reg_4_U; mask_4_U] 0;
  mkI "CFDBRA" F_RRF_e [reg_4_U; mask_4_U; reg_4_U; mask_4_U] 0;
  mkI "CFXBRA" F_RRF_e [reg_4_U; mask_4_U; reg_4_U; mask_4_U] 0;
  mkI "CGEBRA" F_RRF_e [reg_4_U; mask_4_U; reg_4_U; mask_4_U] 0;
  mkI "CGDBRA" F_RRF_e [reg_4_U; mask_4_U; reg_4_U; mask_4_U] 0;
  mkI "CGXBRA" F_RRF_e [reg_4_U; mask_4_U; reg_4_U; mask_4_U] 0;
  mkI "CLFEBR" F_RRF_e [reg_4_U; mask_4_U; reg_4_U; mask_4_U] 0;
  mkI "CLFDBR" F_RRF_e [reg_4_U; mask_4_U; reg_4_U; mask_4_U] 0;
  mkI "CLFXBR" F_RRF_e [reg_4_U; mask_4_U; reg_4_U; mask_4_U] 0;
  mkI "CLGEBR" F_RRF_e [reg_4_U; mask_4_U; reg_4_U; mask_4_U] 0;
  mkI "CLGDBR" F_RRF_e [reg_4_U; mask_4_U; reg_4_U; mask_4_U] 0;
  mkI "CLGXBR" F_RRF_e [reg_4_U; mask_4_U; reg_4_U; mask_4_U] 0;
  mkI "DEBR" F_RRE [reg_4_U; reg_4_U] 0;
  mkI "DDBR" F_RRE [reg_4_U; reg_4_U] 0;
  mkI "DXBR" F_RRE [reg_4_U; reg_4_U] 0;
  mkI "DEB" F_RXE [reg_4_U; dxb_12_4x4_U] 0;
  mkI "DDB" F_RXE [reg_4_U; dxb_12_4x4_U] 0;
  mkI "DIEBR" F_RRF_b [reg_4_U; reg_4_U; reg_4_U; mask_4_U] 0;
  mkI "DIDBR" F_RRF_b [reg_4_U; reg_4_U; reg_4_U; mask_4_U] 0;
  mkI "LTEBR" F_RRE [reg_4_U; reg_4_U] 0;
  mkI "LTDBR" F_RRE [reg_4_U; reg_4_U] 0;
  mkI "LTXBR" F_RRE [reg_4_U; reg_4_U] 0;
  mkI "LCEBR" F_RRE [reg_4_U; reg_4_U] 0;
  mkI "LCDBR" F_RRE [reg_4_U; reg_4_U] 0;
  mkI "LCXBR" F_RRE [reg_4_U; reg_4_U] 0;
  mkI "ECCTR" F_RRE [reg_4_U; reg_4_U] 0;
  mkI "EPCTR" F_RRE [reg_4_U; reg_4_U] 0;
  mkI "ECPGA" F_RRE [reg_4_U; reg_4_U] 0;
  mkI "FIEBR" F_RRF_e [reg_4_U; mask_4_U; reg_4_U] 0;
  mkI "FIDBR" F_RRF_e [reg_4_U; mask_4_U; reg_4_U] 0;
  mkI "FIXBR" F_RRF_e [reg_4_U; mask_4_U; reg_4_U] 0;
  mkI "FIEBRA" F_RRF_e [reg_4_U; mask_4_U; reg_4_U; mask_4_U] 0;
  mkI "FIDBRA" F_RRF_e [reg_4_U; mask_4_U; reg_4_U; mask_4_U] 0;
  mkI "FIXBRA" F_RRF_e [reg_4_U; mask_4_U; reg_4_U; mask_4_U] 0;
  mkI "LSCTL" F_S [db_12_4_U] 0;
  mkI "LDEBR" F_RRE [reg_4_U; reg_4_U] 0;
  mkI "LXDBR" F_RRE [reg_4_U; reg_4_U] 0;
  mkI "LPCTL" F_S [db_12_4_U] 0;
  mkI "LCCTL" F_S [db_12_4_U] 0;
  mkI "LXEBR" F_RRE [reg_4_U; reg_4_U] 0;
  mkI "LDEB" F_RRE [reg_4_U; reg_4_U] 0;
  mkI "LXDB" F_RRE [reg_4_U; reg_4_U] 0;
  mkI "LXEB" F_RRE [reg_4_U; reg_4_U] 0;
  mkI "LNEBR" F_RRE [reg_4_U; reg_4_U] 0;
  mkI "LNDBR" F_RRE [reg_4_U; reg_4_U] 0;
  mkI "LNXBR" F_RRE [reg_4_U; reg_4_U] 0;
  mkI "LPEBR" F_RRE [reg_4_U; reg_4_U] 0;
  mkI "LPDBR" F_RRE [reg_4_U; reg_4_U] 0;
  mkI "LPXBR" F_RRE [reg_4_U; reg_4_U] 0;
  mkI "LEDBR" F_RRE [reg_4_U; reg_4_U] 0;
  mkI "LDXBR" F_RRE [reg_4_U; reg_4_U] 0;
  mkI "LEXBR" F_RRE [reg_4_U; reg_4_U] 0;
  mkI "LEDBRA" F_RRF_e [reg_4_U; mask_4_U; reg_4_U; mask_4_U] 0;
  mkI "LDXBRA" F_RRF_e [reg_4_U; mask_4_U; reg_4_U; mask_4_U] 0;
  mkI "LEXBRA" F_RRF_e [reg_4_U; mask_4_U; reg_4_U; mask_4_U] 0;
  mkI "LPP" F_S [db_12_4_U] 0;
  mkI "MEEBR" F_RRE [reg_4_U; reg_4_U] 0;
  mkI "MDBR" F_RRE [reg_4_U; reg_4_U] 0;
  mkI "MXBR" F_RRE [reg_4_U; reg_4_U] 0;
  mkI "MDEBR" F_RRE [reg_4_U; reg_4_U] 0;
  mkI "MXDBR" F_RRE [reg_4_U; reg_4_U] 0;
  mkI "MEEB" F_RXE [reg_4_U; dxb_12_4x4_U] 0;
  mkI "MDB" F_RXE [reg_4_U; dxb_12_4x4_U] 0;
  mkI "MDEB" F_RXE [reg_4_U; dxb_12_4x4_U] 0;
  mkI "MXDB" F_RXE [reg_4_U; dxb_12_4x4_U] 0;
  mkI "MADBR" F_RRD [reg_4_U; reg_4_U; reg_4_U] 0;
  mkI "MAEBR" F_RRD [reg_4_U; reg_4_U; reg_4_U] 0;
  mkI "MAEB" F_RXF [reg_4_U; reg_4_U; dxb_12_4x4_U] 0;
  mkI "MADB" F_RXF [reg_4_U; reg_4_U; dxb_12_4x4_U] 0;
  mkI "MSEBR" F_RRD [reg_4_U; reg_4_U; reg_4_U] 0;
  mkI "MSDBR" F_RRD [reg_4_U; reg_4_U; reg_4_U] 0;
  mkI "MSEB" F_RXF [reg_4_U; reg_4_U; dxb_12_4x4_U] 0;
  mkI "MSDB" F_RXF [reg_4_U; reg_4_U; dxb_12_4x4_U] 0;
  mkI "QCTRI" F_S [db_12_4_U] 0;
  mkI "QSI" F_S [db_12_4_U] 0;
  mkI "SCCTR" F_RRE [reg_4_U; reg_4_U] 0;
  mkI "SPCTR" F_RRE [reg_4_U; reg_4_U] 0;
  mkI "SQEBR" F_RRE [reg_4_U; reg_4_U] 0;
  mkI "SQDBR" F_RRE [reg_4_U; reg_4_U] 0;
  mkI "SQXBR" F_RRE [reg_4_U; reg_4_U] 0;
  mkI "SQEB" F_RXE [reg_4_U; dxb_12_4x4_U] 0;
  mkI "SQDB" F_RXE [reg_4_U; dxb_12_4x4_U] 0;
  mkI "SEBR" F_RRE [reg_4_U; reg_4_U] 0;
  mkI "SDBR" F_RRE [reg_4_U; reg_4_U] 0;
  mkI "SXBR" F_RRE [reg_4_U; reg_4_U] 0;
  mkI "SEB" F_RXE [reg_4_U; dxb_12_4x4_U] 0;
  mkI "SDB" F_RXE [reg_4_U; dxb_12_4x4_U] 0;
  mkI "SORTL" F_RRE [reg_4_U; reg_4_U] 0;
  mkI "TCEB" F_RXE [reg_4_U; dxb_12_4x4_U] 0;
  mkI "TCDB" F_RXE [reg_4_U; dxb_12_4x4_U] 0;
  mkI "TCXB" F_RXE [reg_4_U; dxb_12_4x4_U] 0;
  mkI "ADTR" F_RRF_a [reg_4_U; reg_4_U; reg_4_U] 0;
  mkI "AXTR" F_RRF_a [reg_4_U; reg_4_U; reg_4_U] 0;
  mkI "ADTRA" F_RRF_a [reg_4_U; reg_4_U; reg_4_U; mask_4_U] 0;
  mkI "AXTRA" F_RRF_a [reg_4_U; reg_4_U; reg_4_U; mask_4_U] 0;
  mkI "CDTR" F_RRE [reg_4_U; reg_4_U] 0;
  mkI "CXTR" F_RRE [reg_4_U; reg_4_U] 0;
  mkI "KDTR" F_RRE [reg_4_U; reg_4_U] 0;
  mkI "KXTR" F_RRE [reg_4_U; reg_4_U] 0;
  mkI "CEDTR" F_RRE [reg_4_U; reg_4_U] 0;
  mkI "CEXTR" F_RRE [reg_4_U; reg_4_U] 0;
  mkI "CDGTR" F_RRE [reg_4_U; reg_4_U] 0;
  mkI "CXGTR" F_RRE [reg_4_U; reg_4_U] 0;
  mkI "CDGTRA" F_RRF_e [reg_4_U; mask_4_U; reg_4_U; mask_4_U] 0;
  mkI "CXGTRA" F_RRF_e [reg_4_U; mask_4_U; reg_4_U; mask_4_U] 0;
  mkI "CDFTR" F_RRF_e [reg_4_U; mask_4_U; reg_4_U; mask_4_U] 0;
  mkI "CXFTR" F_RRF_e [reg_4_U; mask_4_U; reg_4_U; mask_4_U] 0;
  mkI "CDLGTR" F_RRF_e [reg_4_U; mask_4_U; reg_4_U; mask_4_U] 0;
  mkI "CXLGTR" F_RRF_e [reg_4_U; mask_4_U; reg_4_U; mask_4_U] 0;
  mkI "CDLFTR" F_RRF_e [reg_4_U; mask_4_U; reg_4_U; mask_4_U] 0;
  mkI "CXLFTR" F_RRF_e [reg_4_U; mask_4_U; reg_4_U; mask_4_U] 0;
  mkI "CDPT" F_RSL_b [reg_4_U; db_12_8x4L_U; mask_4_U] 0;
  mkI "CXPT" F_RSL_b [reg_4_U; db_12_8x4L_U; mask_4_U] 0;
  mkI "CDSTR" F_RRE [reg_4_U; reg_4_U] 0;
  mkI "CXSTR" F_RRE [reg_4_U; reg_4_U] 0;
  mkI "CDUTR" F_RRE [reg_4_U; reg_4_U] 0;
  mkI "CXUTR" F_RRE [reg_4_U; reg_4_U] 0;
  mkI "CDZT" F_RSL_b [reg_4_U; db_12_8x4L_U; mask_4_U] 0;
  mkI "CXZT" F_RSL_b [reg_4_U; db_12_8x4L_U; mask_4_U] 0;
  mkI "CGDTR" F_RRF_e [reg_4_U; mask_4_U; reg_4_U] 0;
  mkI "CGXTR" F_RRF_e [reg_4_U; mask_4_U; reg_4_U] 0;
  mkI "CGDTRA" F_RRF_e [reg_4_U; mask_4_U; reg_4_U; mask_4_U] 0;
  mkI "CGXTRA" F_RRF_e [reg_4_U; mask_4_U; reg_4_U; mask_4_U] 0;
  mkI "CFDTR" F_RRF_e [reg_4_U; mask_4_U; reg_4_U; mask_4_U] 0;
  mkI "CFXTR" F_RRF_e [reg_4_U; mask_4_U; reg_4_U; mask_4_U] 0;
  mkI "CLGDTR" F_RRF_e [reg_4_U; mask_4_U; reg_4_U; mask_4_U] 0;
  mkI "CLGXTR" F_RRF_e [reg_4_U; mask_4_U; reg_4_U; mask_4_U] 0;
  mkI "CLFDTR" F_RRF_e [reg_4_U; mask_4_U; reg_4_U; mask_4_U] 0;
  mkI "CLFXTR" F_RRF_e [reg_4_U; mask_4_U; reg_4_U; mask_4_U] 0;
  mkI "CPDT" F_RSL_b [reg_4_U; db_12_8x4L_U; mask_4_U] 0;
  mkI "CPXT" F_RSL_b [reg_4_U; db_12_8x4L_U; mask_4_U] 0;
  mkI "CSDTR" F_RRF_d [reg_4_U; reg_4_U; mask_4_U] 0;
  mkI "CSXTR" F_RRF_d [reg_4_U; reg_4_U; mask_4_U] 0;
  mkI "CUDTR" F_RRE [reg_4_U; reg_4_U] 0;
  mkI "CUXTR" F_RRE [reg_4_U; reg_4_U] 0;
  mkI "CZDT" F_RSL_b [reg_4_U; db_12_8x4L_U; mask_4_U] 0;
  mkI "CZXT" F_RSL_b [reg_4_U; db_12_8x4L_U; mask_4_U] 0;
  mkI "DDTR" F_RRF_a [reg_4_U; reg_4_U; reg_4_U] 0;
  mkI "DXTR" F_RRF_a [reg_4_U; reg_4_U; reg_4_U] 0;
  mkI "DDTRA" F_RRF_a [reg_4_U; reg_4_U; reg_4_U; mask_4_U] 0;
  mkI "DXTRA" F_RRF_a [reg_4_U; reg_4_U; reg_4_U; mask_4_U] 0;
  mkI "EEXTR" F_RRE [reg_4_U; reg_4_U] 0;
  mkI "EEDTR" F_RRE [reg_4_U; reg_4_U] 0;
  mkI "ESDTR" F_RRE [reg_4_U; reg_4_U] 0;
  mkI "ESXTR" F_RRE [reg_4_U; reg_4_U] 0;
  mkI "IEDTR" F_RRF_b [reg_4_U; reg_4_U; reg_4_U] 0;
  mkI "IEXTR" F_RRF_b [reg_4_U; reg_4_U; reg_4_U] 0;
  mkI "LTDTR" F_RRE [reg_4_U; reg_4_U] 0;
  mkI "LTXTR" F_RRE [reg_4_U; reg_4_U] 0;
  mkI "FIDTR" F_RRF_e [reg_4_U; mask_4_U; reg_4_U; mask_4_U] 0;
  mkI "FIXTR" F_RRF_e [reg_4_U; mask_4_U; reg_4_U; mask_4_U] 0;
  mkI "LDETR" F_RRF_d [reg_4_U; reg_4_U; mask_4_U] 0;
  mkI "LXDTR" F_RRF_d [reg_4_U; reg_4_U; mask_4_U] 0;
  mkI "LEDTR" F_RRF_e [reg_4_U; mask_4_U; reg_4_U; mask_4_U] 0;
  mkI "LDXTR" F_RRF_e [reg_4_U; mask_4_U; reg_4_U; mask_4_U] 0;
  mkI "MDTR" F_RRF_a [reg_4_U; reg_4_U; reg_4_U] 0;
  mkI "MXTR" F_RRF_a [reg_4_U; reg_4_U; reg_4_U] 0;
  mkI "MDTRA" F_RRF_a [reg_4_U; reg_4_U; reg_4_U; mask_4_U] 0;
  mkI "MXTRA" F_RRF_a [reg_4_U; reg_4_U; reg_4_U; mask_4_U] 0;
  mkI "QADTR" F_RRF_b [reg_4_U; reg_4_U; reg_4_U; mask_4_U] 0;
  mkI "QAXTR" F_RRF_b [reg_4_U; reg_4_U; reg_4_U; mask_4_U] 0;
  mkI "RRDTR" F_RRF_b [reg_4_U; reg_4_U; reg_4_U; mask_4_U] 0;
  mkI "RRXTR" F_RRF_b [reg_4_U; reg_4_U; reg_4_U; mask_4_U] 0;
  mkI "SELFHR" F_RRF_a [reg_4_U; reg_4_U; reg_4_U; mask_4_U] 0;
  mkI "SELGR" F_RRF_a [reg_4_U; reg_4_U; reg_4_U; mask_4_U] 0;
  mkI "SELR" F_RRF_a [reg_4_U; reg_4_U; reg_4_U; mask_4_U] 0;
  mkI "SLDT" F_RXF [reg_4_U; reg_4_U; dxb_12_4x4_U] 0;
  mkI "SLXT" F_RXF [reg_4_U; reg_4_U; dxb_12_4x4_U] 0;
  mkI "SRDT" F_RXF [reg_4_U; reg_4_U; dxb_12_4x4_U] 0;
  mkI "SRXT" F_RXF [reg_4_U; reg_4_U; dxb_12_4x4_U] 0;
  mkI "SDTR" F_RRF_a [reg_4_U; reg_4_U; reg_4_U] 0;
  mkI "SXTR" F_RRF_a [reg_4_U; reg_4_U; reg_4_U] 0;
  mkI "SDTRA" F_RRF_a [reg_4_U; reg_4_U; reg_4_U; mask_4_U] 0;
  mkI "SXTRA" F_RRF_a [reg_4_U; reg_4_U; reg_4_U; mask_4_U] 0;
  mkI "TDCET" F_RXE [reg_4_U; dxb_12_4x4_U] 0;
  mkI "TDCDT" F_RXE [reg_4_U; dxb_12_4x4_U] 0;
  mkI "TDCXT" F_RXE [reg_4_U; dxb_12_4x4_U] 0;
  mkI "TDGET" F_RXE [reg_4_U; dxb_12_4x4_U] 0;
  mkI "TDGDT" F_RXE [reg_4_U; dxb_12_4x4_U] 0;
  mkI "TDGXT" F_RXE [reg_4_U; dxb_12_4x4_U] 0;
  mkI "VBPERM" F_VRR_c [vec_reg_4_U; vec_reg_4_U; vec_reg_4_U] 0;
  mkI "VGEF" F_VRV [vec_reg_4_U; dvb_12_4x4_U; mask_4_U] 0;
  mkI "VCFPS" F_VRR_a [vec_reg_4_U; vec_reg_4_U; mask_4_U; mask_4_U; mask_4_U] 0;
  mkI "VCLFP" F_VRR_a [vec_reg_4_U; vec_reg_4_U; mask_4_U; mask_4_U; mask_4_U] 0;
  mkI "VGEG" F_VRV [vec_reg_4_U; dvb_12_4x4_U; mask_4_U] 0;
  mkI "VGBM" F_VRI_a [vec_reg_4_U; imm_16_U] 0;
  mkI "VGM" F_VRI_b [vec_reg_4_U; imm_8_U; imm_8_U; mask_4_U] 0;
  mkI "VL" F_VRX [vec_reg_4_U; dxb_12_4x4_U; mask_4_U] 1;
  mkI "VSTEBRF" F_VRX [vec_reg_4_U; dxb_12_4x4_U; mask_4_U] 0;
  mkI "VSTEBRG" F_VRX [vec_reg_4_U; dxb_12_4x4_U; mask_4_U] 0;
  mkI "VLLEBRZ" F_VRX [vec_reg_4_U; dxb_12_4x4_U; mask_4_U] 0;
  mkI "VLREP" F_VRX [vec_reg_4_U; dxb_12_4x4_U; mask_4_U] 0;
  mkI "VLR" F_VRR_a [vec_reg_4_U; vec_reg_4_U] 0;
  mkI "VLEB" F_VRX [vec_reg_4_U; dxb_12_4x4_U; mask_4_U] 0;
  mkI "VLEBRH" F_VRX [vec_reg_4_U; dxb_12_4x4_U; mask_4_U] 0;
  mkI "VLEBRG" F_VRX [vec_reg_4_U; dxb_12_4x4_U; mask_4_U] 0;
  mkI "VLBRREP" F_VRX [vec_reg_4_U; dxb_12_4x4_U; mask_4_U] 0;
  mkI "VLER" F_VRX [vec_reg_4_U; dxb_12_4x4_U; mask_4_U] 0;
  mkI "VLBR" F_VRX [vec_reg_4_U; dxb_12_4x4_U; mask_4_U] 0;
  mkI "VLEH" F_VRX [vec_reg_4_U; dxb_12_4x4_U; mask_4_U] 0;
  mkI "VLEIH" F_VRI_a [vec_reg_4_U; imm_16_S; mask_4_U] 0;
  mkI "VLEF" F_VRX [vec_reg_4_U; dxb_12_4x4_U; mask_4_U] 0;
  mkI "VLEIF" F_VRI_a [vec_reg_4_U; imm_16_S; mask_4_U] 0;
  mkI "VLEG" F_VRX [vec_reg_4_U; dxb_12_4x4_U; mask_4_U] 0;
  mkI "VLEIG" F_VRI_a [vec_reg_4_U; imm_16_S; mask_4_U] 0;
  mkI "VLEIB" F_VRI_a [vec_reg_4_U; imm_16_S; mask_4_U] 0;
  mkI "VLGV" F_VRS_c [reg_4_U; vec_reg_4_U; db_12_4_U; mask_4_U] 0;
  mkI "VLLEZ" F_VRX [vec_reg_4_U; dxb_12_4x4_U; mask_4_U] 0;
  mkI "VLM" F_VRS_a [vec_reg_4_U; vec_reg_4_U; db_12_4_U; mask_4_U] 1;
  mkI "VLRLR" F_VRS_d [vec_reg_4_U; reg_4_U; db_12_4_U] 0;
  mkI "VLRL" F_VSI [vec_reg_4_U; db_12_4_U; imm_8_U] 0;
  mkI "VLBB" F_VRX [vec_reg_4_U; dxb_12_4x4_U; mask_4_U] 0;
  mkI "VLVG" F_VRS_b [vec_reg_4_U; reg_4_U; db_12_4_U; mask_4_U] 0;
  mkI "VLVGP" F_VRR_f [vec_reg_4_U; reg_4_U; reg_4_U] 0;
  mkI "VLL" F_VRS_b [vec_reg_4_U; reg_4_U; db_12_4_U] 0;
  mkI "VMRH" F_VRR_c [vec_reg_4_U; vec_reg_4_U; vec_reg_4_U; mask_4_U] 0;
  mkI "VMRL" F_VRR_c [vec_reg_4_U; vec_reg_4_U; vec_reg_4_U; mask_4_U] 0;
  mkI "VPK" F_VRR_c [vec_reg_4_U; vec_reg_4_U; vec_reg_4_U; mask_4_U] 0;
  mkI "VPKS" F_VRR_b [vec_reg_4_U; vec_reg_4_U; vec_reg_4_U; mask_4_U; mask_4_U] 0;
  mkI "VPKLS" F_VRR_b [vec_reg_4_U; vec_reg_4_U; vec_reg_4_U; mask_4_U; mask_4_U] 0;
  mkI "VPERM" F_VRR_e [vec_reg_4_U; vec_reg_4_U; vec_reg_4_U; vec_reg_4_U] 0;
  mkI "VPDI" F_VRR_c [vec_reg_4_U; vec_reg_4_U; vec_reg_4_U; mask_4_U] 0;
  mkI "VREP" F_VRI_c [vec_reg_4_U; vec_reg_4_U; imm_16_U; mask_4_U] 0;
  mkI "VREPI" F_VRI_a [vec_reg_4_U; imm_16_S; mask_4_U] 0;
  mkI "VSCEF" F_VRV [vec_reg_4_U; dvb_12_4x4_U; mask_4_U] 0;
  mkI "VSCEG" F_VRV [vec_reg_4_U; dvb_12_4x4_U; mask_4_U] 0;
  mkI "VSEL" F_VRR_e [vec_reg_4_U; vec_reg_4_U; vec_reg_4_U; vec_reg_4_U] 0;
  mkI "VSEG" F_VRR_a [vec_reg_4_U; vec_reg_4_U; mask_4_U] 0;
  mkI "VSTBR" F_VRX [vec_reg_4_U; dxb_12_4x4_U; mask_4_U] 0;
  mkI "VST" F_VRX [vec_reg_4_U; dxb_12_4x4_U; mask_4_U] 1;
  mkI "VSTEB" F_VRX [vec_reg_4_U; dxb_12_4x4_U; mask_4_U] 0;
  mkI "VSTEBRH" F_VRX [vec_reg_4_U; dxb_12_4x4_U; mask_4_U] 0;
  mkI "VSTEH" F_VRX [vec_reg_4_U; dxb_12_4x4_U; mask_4_U] 0;
  mkI "VSTEF" F_VRX [vec_reg_4_U; dxb_12_4x4_U; mask_4_U] 0;
  mkI "VSTEG" F_VRX [vec_reg_4_U; dxb_12_4x4_U; mask_4_U] 0;
  mkI "VSTER" F_VRX [vec_reg_4_U; dxb_12_4x4_U; mask_4_U] 0;
  mkI "VSTM" F_VRS_a [vec_reg_4_U; vec_reg_4_U; db_12_4_U; mask_4_U] 1;
  mkI "VSTRLR" F_VRS_d [vec_reg_4_U; reg_4_U; db_12_4_U] 0;
  mkI "VSTRL" F_VSI [vec_reg_4_U; db_12_4_U; imm_8_U] 0;
  mkI "VSTL" F_VRS_b [vec_reg_4_U; reg_4_U; db_12_4_U] 0;
  mkI "VUPH" F_VRR_a [vec_reg_4_U; vec_reg_4_U; mask_4_U] 0;
  mkI "VUPL" F_VRR_a [vec_reg_4_U; vec_reg_4_U; mask_4_U] 0;
  mkI "VUPLH" F_VRR_a [vec_reg_4_U; vec_reg_4_U; mask_4_U] 0;
  mkI "VUPLL" F_VRR_a [vec_reg_4_U; vec_reg_4_U; mask_4_U] 0;
  mkI "VA" F_VRR_c [vec_reg_4_U; vec_reg_4_U; vec_reg_4_U; mask_4_U] 0;
  mkI "VACC" F_VRR_c [vec_reg_4_U; vec_reg_4_U; vec_reg_4_U; mask_4_U] 0;
  mkI "VAC" F_VRR_d [vec_reg_4_U; vec_reg_4_U; vec_reg_4_U; vec_reg_4_U; mask_4_U] 0;
  mkI "VACCC" F_VRR_d [vec_reg_4_U; vec_reg_4_U; vec_reg_4_U; vec_reg_4_U; mask_4_U] 0;
  mkI "VN" F_VRR_c [vec_reg_4_U; vec_reg_4_U; vec_reg_4_U] 0;
  mkI "VNC" F_VRR_c [vec_reg_4_U; vec_reg_4_U; vec_reg_4_U] 0;
  mkI "VAVG" F_VRR_c [vec_reg_4_U; vec_reg_4_U; vec_reg_4_U; mask_4_U] 0;
  mkI "VAVGL" F_VRR_c [vec_reg_4_U; vec_reg_4_U; vec_reg_4_U; mask_4_U] 0;
  mkI "VCKSM" F_VRR_c [vec_reg_4_U; vec_reg_4_U; vec_reg_4_U] 0;
  mkI "VEC" F_VRR_a [vec_reg_4_U; vec_reg_4_U; mask_4_U] 0;
  mkI "VECL" F_VRR_a [vec_reg_4_U; vec_reg_4_U; mask_4_U] 0;
  mkI "VCEQ" F_VRR_b [vec_reg_4_U; vec_reg_4_U; vec_reg_4_U; mask_4_U; mask_4_U] 0;
  mkI "VCH" F_VRR_b [vec_reg_4_U; vec_reg_4_U; vec_reg_4_U; mask_4_U; mask_4_U] 0;
  mkI "VCHL" F_VRR_b [vec_reg_4_U; vec_reg_4_U; vec_reg_4_U; mask_4_U; mask_4_U] 0;
  mkI "VCLZ" F_VRR_a [vec_reg_4_U; vec_reg_4_U; mask_4_U] 0;
  mkI "VCTZ" F_VRR_a [vec_reg_4_U; vec_reg_4_U; mask_4_U] 0;
  mkI "VGFM" F_VRR_c [vec_reg_4_U; vec_reg_4_U; vec_reg_4_U; mask_4_U] 0;
  mkI "VX" F_VRR_c [vec_reg_4_U; vec_reg_4_U; vec_reg_4_U] 0;
  mkI "VLC" F_VRR_a [vec_reg_4_U; vec_reg_4_U; mask_4_U] 0;
  mkI "VGFMA" F_VRR_d [vec_reg_4_U; vec_reg_4_U; vec_reg_4_U; vec_reg_4_U; mask_4_U] 0;
  mkI "VLP" F_VRR_a [vec_reg_4_U; vec_reg_4_U; mask_4_U] 0;
  mkI "VMX" F_VRR_c [vec_reg_4_U; vec_reg_4_U; vec_reg_4_U; mask_4_U] 0;
  mkI "VMXL" F_VRR_c [vec_reg_4_U; vec_reg_4_U; vec_reg_4_U; mask_4_U] 0;
  mkI "VMN" F_VRR_c [vec_reg_4_U; vec_reg_4_U; vec_reg_4_U; mask_4_U] 0;
  mkI "VMNL" F_VRR_c [vec_reg_4_U; vec_reg_4_U; vec_reg_4_U; mask_4_U] 0;
  mkI "VMAL" F_VRR_d [vec_reg_4_U; vec_reg_4_U; vec_reg_4_U; vec_reg_4_U; mask_4_U] 0;
  mkI "VMAH" F_VRR_d [vec_reg_4_U; vec_reg_4_U; vec_reg_4_U; vec_reg_4_U; mask_4_U] 0;
  mkI "VMALH" F_VRR_d [vec_reg_4_U; vec_reg_4_U; vec_reg_4_U; vec_reg_4_U; mask_4_U] 0;
  mkI "VMAE" F_VRR_d [vec_reg_4_U; vec_reg_4_U; vec_reg_4_U; vec_reg_4_U; mask_4_U] 0;
  mkI "VMALE" F_VRR_d [vec_reg_4_U; vec_reg_4_U; vec_reg_4_U; vec_reg_4_U; mask_4_U] 0;
  mkI "VMAO" F_VRR_d [vec_reg_4_U; vec_reg_4_U; vec_reg_4_U; vec_reg_4_U; mask_4_U] 0;
  mkI "VMALO" F_VRR_d [vec_reg_4_U; vec_reg_4_U; vec_reg_4_U; vec_reg_4_U; mask_4_U] 0;
  mkI "VMH" F_VRR_c [vec_reg_4_U; vec_reg_4_U; vec_reg_4_U; mask_4_U] 0;
  mkI "VMLH" F_VRR_c [vec_reg_4_U; vec_reg_4_U; vec_reg_4_U; mask_4_U] 0;
  mkI "VML" F_VRR_c [vec_reg_4_U; vec_reg_4_U; vec_reg_4_U; mask_4_U] 0;
  mkI "VME" F_VRR_c [vec_reg_4_U; vec_reg_4_U; vec_reg_4_U; mask_4_U] 0;
  mkI "VMLE" F_VRR_c [vec_reg_4_U; vec_reg_4_U; vec_reg_4_U; mask_4_U] 0;
  mkI "VMO" F_VRR_c [vec_reg_4_U; vec_reg_4_U; vec_reg_4_U; mask_4_U] 0;
  mkI "VMLO" F_VRR_c [vec_reg_4_U; vec_reg_4_U; vec_reg_4_U; mask_4_U] 0;
  mkI "VMSL" F_VRR_d [vec_reg_4_U; vec_reg_4_U; vec_reg_4_U; vec_reg_4_U; mask_4_U; mask_4_U] 0;
  mkI "VNN" F_VRR_c [vec_reg_4_U; vec_reg_4_U; vec_reg_4_U] 0;
  mkI "VNO" F_VRR_c [vec_reg_4_U; vec_reg_4_U; vec_reg_4_U] 0;
  mkI "VNX" F_VRR_c [vec_reg_4_U; vec_reg_4_U; vec_reg_4_U] 0;
  mkI "VO" F_VRR_c [vec_reg_4_U; vec_reg_4_U; vec_reg_4_U] 0;
  mkI "VOC" F_VRR_c [vec_reg_4_U; vec_reg_4_U; vec_reg_4_U] 0;
  mkI "VPOPCT" F_VRR_a [vec_reg_4_U; vec_reg_4_U; mask_4_U] 0;
  mkI "VERLLV" F_VRR_c [vec_reg_4_U; vec_reg_4_U; vec_reg_4_U; mask_4_U] 0;
  mkI "VERLL" F_VRS_a [vec_reg_4_U; vec_reg_4_U; db_12_4_U; mask_4_U] 0;
  mkI "VERIM" F_VRI_d [vec_reg_4_U; vec_reg_4_U; vec_reg_4_U; imm_8_U; mask_4_U] 0;
  mkI "VESLV" F_VRR_c [vec_reg_4_U; vec_reg_4_U; vec_reg_4_U; mask_4_U] 0;
  mkI "VESL" F_VRS_a [vec_reg_4_U; vec_reg_4_U; db_12_4_U; mask_4_U] 0;
  mkI "VESRAV" F_VRR_c [vec_reg_4_U; vec_reg_4_U; vec_reg_4_U; mask_4_U] 0;
  mkI "VESRA" F_VRS_a [vec_reg_4_U; vec_reg_4_U; db_12_4_U; mask_4_U] 0;
  mkI "VESRLV" F_VRR_c [vec_reg_4_U; vec_reg_4_U; vec_reg_4_U; mask_4_U] 0;
  mkI "VESRL" F_VRS_a [vec_reg_4_U; vec_reg_4_U; db_12_4_U; mask_4_U] 0;
  mkI "VSLD" F_VRI_d [vec_reg_4_U; vec_reg_4_U; vec_reg_4_U; imm_8_U] 0;
  mkI "VSRD" F_VRI_d [vec_reg_4_U; vec_reg_4_U; vec_reg_4_U; imm_8_U] 0;
  mkI "VSLDB" F_VRI_d [vec_reg_4_U; vec_reg_4_U; vec_reg_4_U; imm_8_U] 0;
  mkI "VSL" F_VRR_c [vec_reg_4_U; vec_reg_4_U; vec_reg_4_U] 0;
  mkI "VSLB" F_VRR_c [vec_reg_4_U; vec_reg_4_U; vec_reg_4_U] 0;
  mkI "VSRA" F_VRR_c [vec_reg_4_U; vec_reg_4_U; vec_reg_4_U] 0;
  mkI "VSRAB" F_VRR_c [vec_reg_4_U; vec_reg_4_U; vec_reg_4_U] 0;
  mkI "VSRL" F_VRR_c [vec_reg_4_U; vec_reg_4_U; vec_reg_4_U] 0;
  mkI "VSRLB" F_VRR_c [vec_reg_4_U; vec_reg_4_U; vec_reg_4_U] 0;
  mkI "VS" F_VRR_c [vec_reg_4_U; vec_reg_4_U; vec_reg_4_U; mask_4_U] 0;
  mkI "VSCBI" F_VRR_c [vec_reg_4_U; vec_reg_4_U; vec_reg_4_U; mask_4_U] 0;
  mkI "VCSFP" F_VRR_a [vec_reg_4_U; vec_reg_4_U; mask_4_U; mask_4_U; mask_4_U] 0;
  mkI "VSBI" F_VRR_d [vec_reg_4_U; vec_reg_4_U; vec_reg_4_U; vec_reg_4_U; mask_4_U] 0;
  mkI "VSBCBI" F_VRR_d [vec_reg_4_U; vec_reg_4_U; vec_reg_4_U; vec_reg_4_U; mask_4_U] 0;
  mkI "VSUMG" F_VRR_c [vec_reg_4_U; vec_reg_4_U; vec_reg_4_U; mask_4_U] 0;
  mkI "VSUMQ" F_VRR_c [vec_reg_4_U; vec_reg_4_U; vec_reg_4_U; mask_4_U] 0;
  mkI "VSUM" F_VRR_c [vec_reg_4_U; vec_reg_4_U; vec_reg_4_U; mask_4_U] 0;
  mkI "VTM" F_VRR_a [vec_reg_4_U; vec_reg_4_U] 0;
  mkI "VFAE" F_VRR_b [vec_reg_4_U; vec_reg_4_U; vec_reg_4_U; mask_4_U; mask_4_U] 1;
  mkI "VFEE" F_VRR_b [vec_reg_4_U; vec_reg_4_U; vec_reg_4_U; mask_4_U; mask_4_U] 1;
  mkI "VFENE" F_VRR_b [vec_reg_4_U; vec_reg_4_U; vec_reg_4_U; mask_4_U; mask_4_U] 1;
  mkI "VISTR" F_VRR_a [vec_reg_4_U; vec_reg_4_U; mask_4_U; mask_4_U] 1;
  mkI "VSTRC" F_VRR_d [vec_reg_4_U; vec_reg_4_U; vec_reg_4_U; vec_reg_4_U; mask_4_U; mask_4_U] 1;
  mkI "VSTRS" F_VRR_d [vec_reg_4_U; vec_reg_4_U; vec_reg_4_U; vec_reg_4_U; mask_4_U; mask_4_U] 1;
  mkI "VFA" F_VRR_c [vec_reg_4_U; vec_reg_4_U; vec_reg_4_U; mask_4_U; mask_4_U] 0;
  mkI "WFC" F_VRR_a [vec_reg_4_U; vec_reg_4_U; mask_4_U; mask_4_U] 0;
  mkI "WFK" F_VRR_a [vec_reg_4_U; vec_reg_4_U; mask_4_U; mask_4_U] 0;
  mkI "VFCE" F_VRR_c [vec_reg_4_U; vec_reg_4_U; vec_reg_4_U; mask_4_U; mask_4_U; mask_4_U] 0;
  mkI "VFCH" F_VRR_c [vec_reg_4_U; vec_reg_4_U; vec_reg_4_U; mask_4_U; mask_4_U; mask_4_U] 0;
  mkI "VFCHE" F_VRR_c [vec_reg_4_U; vec_reg_4_U; vec_reg_4_U; mask_4_U; mask_4_U; mask_4_U] 0;
  mkI "VCFPS" F_VRR_a [vec_reg_4_U; vec_reg_4_U; mask_4_U; mask_4_U; mask_4_U] 0;
  mkI "VCFPL" F_VRR_a [vec_reg_4_U; vec_reg_4_U; mask_4_U; mask_4_U; mask_4_U] 0;
  mkI "VCLGD" F_VRR_a [vec_reg_4_U; vec_reg_4_U; mask_4_U; mask_4_U; mask_4_U] 0;
  mkI "VFD" F_VRR_c [vec_reg_4_U; vec_reg_4_U; vec_reg_4_U; mask_4_U; mask_4_U] 0;
  mkI "VFI" F_VRR_a [vec_reg_4_U; vec_reg_4_U; mask_4_U; mask_4_U; mask_4_U] 0;
  mkI "VFLL" F_VRR_a [vec_reg_4_U; vec_reg_4_U; mask_4_U; mask_4_U] 0;
  mkI "VFLR" F_VRR_a [vec_reg_4_U; vec_reg_4_U; mask_4_U; mask_4_U; mask_4_U] 0;
  mkI "VFMAX" F_VRR_c [vec_reg_4_U; vec_reg_4_U; vec_reg_4_U; mask_4_U; mask_4_U; mask_4_U] 0;
  mkI "VFMIN" F_VRR_c [vec_reg_4_U; vec_reg_4_U; vec_reg_4_U; mask_4_U; mask_4_U; mask_4_U] 0;
  mkI "VFM" F_VRR_c [vec_reg_4_U; vec_reg_4_U; vec_reg_4_U; mask_4_U; mask_4_U] 0;
  mkI "VFMA" F_VRR_e [vec_reg_4_U; vec_reg_4_U; vec_reg_4_U; vec_reg_4_U; mask_4_U; mask_4_U] 0;
  mkI "VFMS" F_VRR_e [vec_reg_4_U; vec_reg_4_U; vec_reg_4_U; vec_reg_4_U; mask_4_U; mask_4_U] 0;
  mkI "VFNMA" F_VRR_e [vec_reg_4_U; vec_reg_4_U; vec_reg_4_U; vec_reg_4_U; mask_4_U; mask_4_U] 0;
  mkI "VFNMS" F_VRR_e [vec_reg_4_U; vec_reg_4_U; vec_reg_4_U; vec_reg_4_U; mask_4_U; mask_4_U] 0;
  mkI "VFPSO" F_VRR_a [vec_reg_4_U; vec_reg_4_U; mask_4_U; mask_4_U; mask_4_U] 0;
  mkI "VFSQ" F_VRR_a [vec_reg_4_U; vec_reg_4_U; mask_4_U; mask_4_U] 0;
  mkI "VFS" F_VRR_c [vec_reg_4_U; vec_reg_4_U; vec_reg_4_U; mask_4_U; mask_4_U] 0;
  mkI "VFTCI" F_VRI_e [vec_reg_4_U; vec_reg_4_U; imm_12_S; mask_4_U; mask_4_U] 0;
  mkI "VAP" F_VRI_f [vec_reg_4_U; vec_reg_4_U; vec_reg_4_U; imm_8_U; mask_4_U] 0;
  mkI "VCP" F_VRR_h [vec_reg_4_U; vec_reg_4_U; mask_4_U] 0;
  mkI "VCVB" F_VRR_i [reg_4_U; vec_reg_4_U; mask_4_U] 0;
  mkI "VCVBG" F_VRR_i [reg_4_U; vec_reg_4_U; mask_4_U] 0;
  mkI "VCVD" F_VRI_i [vec_reg_4_U; reg_4_U; imm_8_S; mask_4_U] 0;
  mkI "VCVDG" F_VRI_i [vec_reg_4_U; reg_4_U; imm_8_S; mask_4_U] 0;
  mkI "VDP" F_VRI_f [vec_reg_4_U; vec_reg_4_U; vec_reg_4_U; imm_8_U; mask_4_U] 0;
  mkI "VMP" F_VRI_f [vec_reg_4_U; vec_reg_4_U; vec_reg_4_U; imm_8_U; mask_4_U] 0;
  mkI "VMSP" F_VRI_f [vec_reg_4_U; vec_reg_4_U; vec_reg_4_U; imm_8_U; mask_4_U] 0;
  mkI "VRP" F_VRI_f [vec_reg_4_U; vec_reg_4_U; vec_reg_4_U; imm_8_U; mask_4_U] 0;
  mkI "VSDP" F_VRI_f [vec_reg_4_U; vec_reg_4_U; vec_reg_4_U; imm_8_U; mask_4_U] 0;
  mkI "VSP" F_VRI_f [vec_reg_4_U; vec_reg_4_U; vec_reg_4_U; imm_8_U; mask_4_U] 0;
  mkI "VLIP" F_VRI_h [vec_reg_4_U; imm_16_S; imm_4_U] 0;
  mkI "VPKZ" F_VSI [vec_reg_4_U; db_12_4_U; imm_8_U] 0;
  mkI "VPSOP" F_VRI_g [vec_reg_4_U; vec_reg_4_U; imm_8_U; imm_8_U; mask_4_U] 0;
  mkI "VSRP" F_VRI_g [vec_reg_4_U; vec_reg_4_U; imm_8_U; imm_8_S; mask_4_U] 0;
  mkI "SIE" F_S [db_12_4_U] 0;
  mkI "VAD" F_RI_a [reg_4_U; imm_16_U] 0;
  mkI "VSD" F_RI_a [reg_4_U; imm_16_U] 0;
  mkI "VADS" F_RI_a [reg_4_U; imm_16_U] 0;
  mkI "VSDS" F_RI_a [reg_4_U; imm_16_U] 0;
  mkI "VMDS" F_RI_a [reg_4_U; imm_16_U] 0;
  mkI "VDDS" F_RI_a [reg_4_U; imm_16_U] 0;
  mkI "VMADS" F_RI_a [reg_4_U; imm_16_U] 0;
  mkI "VMSDS" F_RI_a [reg_4_U; imm_16_U] 0;
  mkI "VCDS" F_RI_a [reg_4_U; imm_16_U] 0;
  mkI "VAS" F_RI_a [reg_4_U; imm_16_U] 0;
  mkI "VSS" F_RI_a [reg_4_U; imm_16_U] 0;
  mkI "VMS" F_RI_a [reg_4_U; imm_16_U] 0;
  mkI "VNS" F_RI_a [reg_4_U; imm_16_U] 0;
  mkI "VOS" F_RI_a [reg_4_U; imm_16_U] 0;
  mkI "VXS" F_RI_a [reg_4_U; imm_16_U] 0;
  mkI "VCS" F_RI_a [reg_4_U; imm_16_U] 0;
  mkI "VMD" F_RI_a [reg_4_U; imm_16_U] 0;
  mkI "VMSD" F_RI_a [reg_4_U; imm_16_U] 0;
  mkI "VMSE" F_RI_a [reg_4_U; imm_16_U] 0;
  mkI "VMSES" F_RI_a [reg_4_U; imm_16_U] 0;
  mkI "VLINT" F_RI_a [reg_4_U; imm_16_U] 0;
  mkI "VDD" F_RI_a [reg_4_U; imm_16_U] 0;
  mkI "VDDS" F_RI_a [reg_4_U; imm_16_U] 0;
  mkI "VDE" F_RI_a [reg_4_U; imm_16_U] 0;
  mkI "VDES" F_RI_a [reg_4_U; imm_16_U] 0;
  mkI "VMXAD" F_RRE [reg_4_U; reg_4_U] 0;
  mkI "VMXAE" F_RRE [reg_4_U; reg_4_U] 0;
  mkI "VMXSE" F_RRE [reg_4_U; reg_4_U] 0;
  mkI "VNVM" F_RRE [reg_4_U; reg_4_U] 0;
  mkI "VOVM" F_RRE [reg_4_U; reg_4_U] 0;
  mkI "VLCVM" F_RRE [reg_4_U; reg_4_U] 0;
  mkI "VLELE" F_RRE [reg_4_U; reg_4_U] 0;
  mkI "VLELD" F_RRE [reg_4_U; reg_4_U] 0;
  mkI "VLI" F_RRE [reg_4_U; reg_4_U] 0;
  mkI "VLID" F_RRE [reg_4_U; reg_4_U] 0;
  mkI "VLBIX" F_RRE [reg_4_U; reg_4_U] 0;
  mkI "VLVCU" F_RRE [reg_4_U; reg_4_U] 0;
  mkI "VLVCA" F_RRE [reg_4_U; reg_4_U] 0;
  mkI "VLVM" F_RRE [reg_4_U; reg_4_U] 0;
  mkI "VMNSD" F_RRE [reg_4_U; reg_4_U] 0;
  mkI "VMNSE" F_RRE [reg_4_U; reg_4_U] 0;
  mkI "VMRRS" F_RRE [reg_4_U; reg_4_U] 0;
  mkI "VMRSV" F_RRE [reg_4_U; reg_4_U] 0;
  mkI "VACRS" F_RRE [reg_4_U; reg_4_U] 0;
  mkI "VACSV" F_RRE [reg_4_U; reg_4_U] 0;
  mkI "VSTVM" F_RRE [reg_4_U; reg_4_U] 0;
  mkI "VSTVP" F_RRE [reg_4_U; reg_4_U] 0;
  mkI "VSVMM" F_RRE [reg_4_U; reg_4_U] 0;
  mkI "VTVM" F_RRE [reg_4_U; reg_4_U] 0;
  mkI "VXELE" F_RRE [reg_4_U; reg_4_U] 0;
  mkI "VXELD" F_RRE [reg_4_U; reg_4_U] 0;
  mkI "VXVC" F_RRE [reg_4_U; reg_4_U] 0;
  mkI "VXVM" F_RRE [reg_4_U; reg_4_U] 0;
  mkI "VXVMM" F_RRE [reg_4_U; reg_4_U] 0;
  mkI "VSTI" F_RRE [reg_4_U; reg_4_U] 0;
  mkI "VSTID" F_RRE [reg_4_U; reg_4_U] 0;
  mkI "VRCL" F_RRE [reg_4_U; reg_4_U] 0;
  mkI "VRRS" F_RRE [reg_4_U; reg_4_U] 0;
  mkI "VRSV" F_RRE [reg_4_U; reg_4_U] 0;
  mkI "VRSVC" F_RRE [reg_4_U; reg_4_U] 0;
  mkI "VSLL" F_RRE [reg_4_U; reg_4_U] 0;
  mkI "VSPSD" F_RRE [reg_4_U; reg_4_U] 0;
  mkI "VZPSD" F_RRE [reg_4_U; reg_4_U] 0;
  mkI "VSRRS" F_RRE [reg_4_U; reg_4_U] 0;
  mkI "VSRSV" F_RRE [reg_4_U; reg_4_U] 0;
  mkI "VOVM" F_RRE [reg_4_U; reg_4_U] 0;
  mkI "VCVM" F_RRE [reg_4_U; reg_4_U] 0;
  mkI "VCZVM" F_RRE [reg_4_U; reg_4_U] 0;
  mkI "VCOVM" F_RRE [reg_4_U; reg_4_U] 0;
  mkI "VTP" F_VRR_g [vec_reg_4_U] 0;
  mkI "VUPKZ" F_VSI [vec_reg_4_U; db_12_4_U; imm_8_U] 0;
  mkI "VSTK" F_RI_a [reg_4_U; imm_16_U] 0;
  mkI "VSE" F_RI_a [reg_4_U; imm_16_U] 0;
  mkI "VSES" F_RI_a [reg_4_U; imm_16_U] 0;
  mkI "VSD" F_RI_a [reg_4_U; imm_16_U] 0;
  mkI "VSDS" F_RI_a [reg_4_U; imm_16_U] 0;
  mkI "VSTD" F_RI_a [reg_4_U; imm_16_U] 0;
  mkI "VSTKD" F_RI_a [reg_4_U; imm_16_U] 0;
  mkI "VSTMD" F_RI_a [reg_4_U; imm_16_U] 0;
  mkI "VSTH" F_RI_a [reg_4_U; imm_16_U] 0;
  mkI "VLD" F_RI_a [reg_4_U; imm_16_U] 0;
  mkI "VLH" F_RI_a [reg_4_U; imm_16_U] 0;
  mkI "VLMD" F_RI_a [reg_4_U; imm_16_U] 0;
  mkI "VLY" F_RI_a [reg_4_U; imm_16_U] 0;
  mkI "VLYD" F_RI_a [reg_4_U; imm_16_U] 0;
  mkI "VM" F_RI_a [reg_4_U; imm_16_U] 0;
  mkI "VMAD" F_RI_a [reg_4_U; imm_16_U] 0;
  mkI "VMAES" F_RI_a [reg_4_U; imm_16_U] 0;
  mkI "VMCD" F_RI_a [reg_4_U; imm_16_U] 0;
  mkI "VMCE" F_RI_a [reg_4_U; imm_16_U] 0;
  mkI "VMD" F_RI_a [reg_4_U; imm_16_U] 0;
  mkI "VMES" F_RI_a [reg_4_U; imm_16_U] 0;
  mkI "VACD" F_RI_a [reg_4_U; imm_16_U] 0;
  mkI "VACE" F_RI_a [reg_4_U; imm_16_U] 0;
  mkI "VAE" F_RI_a [reg_4_U; imm_16_U] 0;
  mkI "VAES" F_RI_a [reg_4_U; imm_16_U] 0;
  mkI "VC" F_RI_a [reg_4_U; imm_16_U] 0;
  mkI "VCD" F_RI_a [reg_4_U; imm_16_U] 0;
  mkI "VCE" F_RI_a [reg_4_U; imm_16_U] 0;
  mkI "VCES" F_RI_a [reg_4_U; imm_16_U] 0].

Local Open Scope Z_scope.
Definition mnems : list mnem := [
  mkM "B" "BC" [(0%nat, 15)];
  mkM "BR" "BCR" [(0%nat, 15)];
  mkM "J" "BRC" [(0%nat, 15)];
  mkM "NOP" "BC" [(0%nat, 0)];
  mkM "NOPR" "BCR" [(0%nat, 0)];
  mkM "JNOP" "BRC" [(0%nat, 0)];
  mkM "BH" "BC" [(0%nat, 2)];
  mkM "BHR" "BCR" [(0%nat, 2)];
  mkM "JH" "BRC" [(0%nat, 2)];
  mkM "BL" "BC" [(0%nat, 4)];
  mkM "BLR" "BCR" [(0%nat, 4)];
  mkM "JL" "BRC" [(0%nat, 4)];
  mkM "BE" "BC" [(0%nat, 8)];
  mkM "BER" "BCR" [(0%nat, 8)];
  mkM "JE" "BRC" [(0%nat, 8)];
  mkM "BNH" "BC" [(0%nat, 13)];
  mkM "BNHR" "BCR" [(0%nat, 13)];
  mkM "JNH" "BRC" [(0%nat, 13)];
  mkM "BNL" "BC" [(0%nat, 11)];
  mkM "BNLR" "BCR" [(0%nat, 11)];
  mkM "JNL" "BRC" [(0%nat, 11)];
  mkM "BNE" "BC" [(0%nat, 7)];
  mkM "BNER" "BCR" [(0%nat, 7)];
  mkM "JNE" "BRC" [(0%nat, 7)];
  mkM "BP" "BC" [(0%nat, 2)];
  mkM "BPR" "BCR" [(0%nat, 2)];
  mkM "JP" "BRC" [(0%nat, 2)];
  mkM "JM" "BRC" [(0%nat, 4)];
  mkM "JZ" "BRC" [(0%nat, 8)];
  mkM "JO" "BRC" [(0%nat, 1)];
  mkM "BNP" "BC" [(0%nat, 13)];
  mkM "BNPR" "BCR" [(0%nat, 13)];
  mkM "JNP" "BRC" [(0%nat, 13)];
  mkM "BNM" "BC" [(0%nat, 11)];
  mkM "JNM" "BRC" [(0%nat, 11)];
  mkM "BNZ" "BC" [(0%nat, 7)];
  mkM "JNZ" "BRC" [(0%nat, 7)];
  mkM "BNO" "BC" [(0%nat, 14)];
  mkM "JNO" "BRC" [(0%nat, 14)];
  mkM "XHLR" "RXSBG" [(2%nat, 0); (3%nat, 31); (4%nat, 32)];
  mkM "XHHR" "RXSBG" [(2%nat, 0); (3%nat, 31)];
  mkM "XLHR" "RXSBG" [(2%nat, 32); (3%nat, 63); (4%nat, 32)];
  mkM "OHLR" "ROSBG" [(2%nat, 0); (3%nat, 31); (4%nat, 32)];
  mkM "OHHR" "ROSBG" [(2%nat, 0); (3%nat, 31)];
  mkM "OLHR" "ROSBG" [(2%nat, 32); (3%nat, 63); (4%nat, 32)];
  mkM "NHLR" "RNSBG" [(2%nat, 0); (3%nat, 31); (4%nat, 32)];
  mkM "NHHR" "RNSBG" [(2%nat, 0); (3%nat, 31)];
  mkM "NLHR" "RNSBG" [(2%nat, 32); (3%nat, 63); (4%nat, 32)];
  mkM "BO" "BC" [(0%nat, 1)];
  mkM "BOR" "BCR" [(0%nat, 1)];
  mkM "BM" "BC" [(0%nat, 4)];
  mkM "BMR" "BCR" [(0%nat, 4)];
  mkM "BZ" "BC" [(0%nat, 8)];
  mkM "BZR" "BCR" [(0%nat, 8)];
  mkM "BNOR" "BCR" [(0%nat, 14)];
  mkM "BNMR" "BCR" [(0%nat, 11)];
  mkM "BNZR" "BCR" [(0%nat, 7)];
  mkM "BRUL" "BRCL" [(0%nat, 15)];
  mkM "BRHL" "BRCL" [(0%nat, 2)];
  mkM "BRLL" "BRCL" [(0%nat, 4)];
  mkM "BREL" "BRCL" [(0%nat, 8)];
  mkM "BRNHL" "BRCL" [(0%nat, 13)];
  mkM "BRNLL" "BRCL" [(0%nat, 11)];
  mkM "BRNEL" "BRCL" [(0%nat, 7)];
  mkM "BRPL" "BRCL" [(0%nat, 2)];
  mkM "BRML" "BRCL" [(0%nat, 4)];
  mkM "BRZL" "BRCL" [(0%nat, 8)];
  mkM "BROL" "BRCL" [(0%nat, 1)];
  mkM "BRNPL" "BRCL" [(0%nat, 13)];
  mkM "BRNML" "BRCL" [(0%nat, 11)];
  mkM "BRNZL" "BRCL" [(0%nat, 7)];
  mkM "BRNOL" "BRCL" [(0%nat, 14)];
  mkM "BRO" "BRC" [(0%nat, 1)];
  mkM "BRP" "BRC" [(0%nat, 2)];
  mkM "BRH" "BRC" [(0%nat, 2)];
  mkM "BRL" "BRC" [(0%nat, 4)];
  mkM "BRM" "BRC" [(0%nat, 4)];
  mkM "BRNE" "BRC" [(0%nat, 7)];
  mkM "BRNZ" "BRC" [(0%nat, 7)];
  mkM "BRE" "BRC" [(0%nat, 8)];
  mkM "BRZ" "BRC" [(0%nat, 8)];
  mkM "BRNL" "BRC" [(0%nat, 11)];
  mkM "BRNM" "BRC" [(0%nat, 11)];
  mkM "BRNH" "BRC" [(0%nat, 13)];
  mkM "BRNP" "BRC" [(0%nat, 13)];
  mkM "BRNO" "BRC" [(0%nat, 14)];
  mkM "BRU" "BRC" [(0%nat, 15)];
  mkM "JLU" "BRCL" [(0%nat, 15)];
  mkM "JLNOP" "BRCL" [(0%nat, 0)];
  mkM "JLH" "BRCL" [(0%nat, 2)];
  mkM "JLL" "BRCL" [(0%nat, 4)];
  mkM "JLE" "BRCL" [(0%nat, 8)];
  mkM "JLNH" "BRCL" [(0%nat, 13)];
  mkM "JLNL" "BRCL" [(0%nat, 11)];
  mkM "JLNE" "BRCL" [(0%nat, 7)];
  mkM "JLP" "BRCL" [(0%nat, 2)];
  mkM "JLM" "BRCL" [(0%nat, 4)];
  mkM "JLZ" "BRCL" [(0%nat, 8)];
  mkM "JLO" "BRCL" [(0%nat, 1)];
  mkM "JLNP" "BRCL" [(0%nat, 13)];
  mkM "JLNM" "BRCL" [(0%nat, 11)];
  mkM "JLNZ" "BRCL" [(0%nat, 7)];
  mkM "JLNO" "BRCL" [(0%nat, 14)];
  mkM "JAS" "BRAS" [];
  mkM "JASL" "BRASL" [];
  mkM "JC" "BRC" [];
  mkM "JCT" "BRCT" [];
  mkM "JCTG" "BRCTG" [];
  mkM "JXH" "BRXH" [];
  mkM "JXHG" "BRXHG" [];
  mkM "JXLE" "BRXLE" [];
  mkM "JXLEG" "BRXLG" [];
  mkM "VCDG" "VCFPS" [];
  mkM "VCGD" "VCSFP" [];
  mkM "BIO" "BIC" [(0%nat, 1)];
  mkM "BIP" "BIC" [(0%nat, 2)];
  mkM "BIH" "BIC" [(0%nat, 2)];
  mkM "BIM" "BIC" [(0%nat, 4)];
  mkM "BIL" "BIC" [(0%nat, 4)];
  mkM "BINZ" "BIC" [(0%nat, 7)];
  mkM "BINE" "BIC" [(0%nat, 7)];
  mkM "BIZ" "BIC" [(0%nat, 8)];
  mkM "BIE" "BIC" [(0%nat, 8)];
  mkM "BINM" "BIC" [(0%nat, 11)];
  mkM "BINL" "BIC" [(0%nat, 11)];
  mkM "BINP" "BIC" [(0%nat, 13)];
  mkM "BINH" "BIC" [(0%nat, 13)];
  mkM "BINO" "BIC" [(0%nat, 14)];
  mkM "BI" "BIC" [(0%nat, 15)];
  mkM "VSTBRH" "VSTBR" [(2%nat, 1)];
  mkM "VSTBRF" "VSTBR" [(2%nat, 2)];
  mkM "VSTBRG" "VSTBR" [(2%nat, 3)];
  mkM "VSTBRQ" "VSTBR" [(2%nat, 4)];
  mkM "VSTERH" "VSTER" [(2%nat, 1)];
  mkM "VSTERF" "VSTER" [(2%nat, 2)];
  mkM "VSTERG" "VSTER" [(2%nat, 3)];
  mkM "STERV" "VSTEBRF" [(2%nat, 0)];
  mkM "STDRV" "VSTEBRG" [(2%nat, 0)];
  mkM "SELFHRE" "SELFHR" [(3%nat, 8)];
  mkM "SELFHRH" "SELFHR" [(3%nat, 2)];
  mkM "SELFHRL" "SELFHR" [(3%nat, 4)];
  mkM "SELFHRNE" "SELFHR" [(3%nat, 7)];
  mkM "SELFHRNH" "SELFHR" [(3%nat, 13)];
  mkM "SELFHRNL" "SELFHR" [(3%nat, 11)];
  mkM "SELFHRNO" "SELFHR" [(3%nat, 14)];
  mkM "SELFHRO" "SELFHR" [(3%nat, 1)];
  mkM "LHHR" "RISBHGZ" [(2%nat, 0); (3%nat, 31)];
  mkM "LHLR" "RISBHGZ" [(2%nat, 0); (3%nat, 31); (4%nat, 32)];
  mkM "LLHHHR" "RISBHGZ" [(2%nat, 16); (3%nat, 31)];
  mkM "LLHHLR" "RISBHGZ" [(2%nat, 16); (3%nat, 31); (4%nat, 32)];
  mkM "LLCHHR" "RISBHGZ" [(2%nat, 24); (3%nat, 31)];
  mkM "LLCHLR" "RISBHGZ" [(2%nat, 24); (3%nat, 31); (4%nat, 32)];
  mkM "LLHFR" "RISBLGZ" [(2%nat, 0); (3%nat, 31); (4%nat, 32)];
  mkM "LLHLHR" "RISBLGZ" [(2%nat, 16); (3%nat, 31); (4%nat, 32)];
  mkM "LLCLHR" "RISBLGZ" [(2%nat, 24); (3%nat, 31); (4%nat, 32)];
  mkM "LOCO" "LOC" [(2%nat, 1)];
  mkM "LOCNO" "LOC" [(2%nat, 14)];
  mkM "LOCGO" "LOCG" [(2%nat, 1)];
  mkM "LOCGNO" "LOCG" [(2%nat, 14)];
  mkM "LOCGHIH" "LOCGHI" [(2%nat, 2)];
  mkM "LOCGHIL" "LOCGHI" [(2%nat, 4)];
  mkM "LOCGHIE" "LOCGHI" [(2%nat, 8)];
  mkM "LOCGHINE" "LOCGHI" [(2%nat, 7)];
  mkM "LOCGHINL" "LOCGHI" [(2%nat, 11)];
  mkM "LOCGHINH" "LOCGHI" [(2%nat, 13)];
  mkM "LOCGHINO" "LOCGHI" [(2%nat, 14)];
  mkM "LOCGHIO" "LOCGHI" [(2%nat, 1)];
  mkM "LOCGRO" "LOCGR" [(2%nat, 1)];
  mkM "LOCGRNO" "LOCGR" [(2%nat, 14)];
  mkM "LOCHHIE" "LOCHHI" [(2%nat, 8)];
  mkM "LOCHHIH" "LOCHHI" [(2%nat, 2)];
  mkM "LOCHHIL" "LOCHHI" [(2%nat, 4)];
  mkM "LOCHHINE" "LOCHHI" [(2%nat, 7)];
  mkM "LOCHHINH" "LOCHHI" [(2%nat, 13)];
  mkM "LOCHHINL" "LOCHHI" [(2%nat, 11)];
  mkM "LOCHHINO" "LOCHHI" [(2%nat, 14)];
  mkM "LOCHHIO" "LOCHHI" [(2%nat, 1)];
  mkM "LOCHIE" "LOCHI" [(2%nat, 8)];
  mkM "LOCHIH" "LOCHI" [(2%nat, 2)];
  mkM "LOCHIL" "LOCHI" [(2%nat, 4)];
  mkM "LOCHINE" "LOCHI" [(2%nat, 7)];
  mkM "LOCHINH" "LOCHI" [(2%nat, 13)];
  mkM "LOCHINL" "LOCHI" [(2%nat, 11)];
  mkM "LOCHINO" "LOCHI" [(2%nat, 14)];
  mkM "LOCHIO" "LOCHI" [(2%nat, 1)];
  mkM "LOCRNO" "LOCR" [(2%nat, 14)];
  mkM "LOCRO" "LOCR" [(2%nat, 1)];
  mkM "LOCFHE" "LOCFH" [(2%nat, 8)];
  mkM "LOCFHH" "LOCFH" [(2%nat, 2)];
  mkM "LOCFHL" "LOCFH" [(2%nat, 4)];
  mkM "LOCFHNE" "LOCFH" [(2%nat, 7)];
  mkM "LOCFHNH" "LOCFH" [(2%nat, 13)];
  mkM "LOCFHNL" "LOCFH" [(2%nat, 11)];
  mkM "LOCFHNO" "LOCFH" [(2%nat, 14)];
  mkM "LOCFHO" "LOCFH" [(2%nat, 1)];
  mkM "LOCFHRH" "LOCFHR" [(2%nat, 2)];
  mkM "LOCFHRL" "LOCFHR" [(2%nat, 4)];
  mkM "LOCFHRE" "LOCFHR" [(2%nat, 8)];
  mkM "LOCFHRNE" "LOCFHR" [(2%nat, 7)];
  mkM "LOCFHRNH" "LOCFHR" [(2%nat, 13)];
  mkM "LOCFHRNL" "LOCFHR" [(2%nat, 11)];
  mkM "LOCFHRNO" "LOCFHR" [(2%nat, 14)];
  mkM "LOCFHRO" "LOCFHR" [(2%nat, 1)];
  mkM "STOCFHE" "STOCFH" [(2%nat, 8)];
  mkM "STOCFHH" "STOCFH" [(2%nat, 2)];
  mkM "STOCFHL" "STOCFH" [(2%nat, 4)];
  mkM "STOCFHNE" "STOCFH" [(2%nat, 7)];
  mkM "STOCFHNH" "STOCFH" [(2%nat, 13)];
  mkM "STOCFHNL" "STOCFH" [(2%nat, 11)];
  mkM "STOCFHNO" "STOCFH" [(2%nat, 14)];
  mkM "STOCFHO" "STOCFH" [(2%nat, 1)];
  mkM "STOCGNO" "STOCG" [(2%nat, 14)];
  mkM "STOCGO" "STOCG" [(2%nat, 1)];
  mkM "STOCNO" "STOC" [(2%nat, 14)];
  mkM "STOCO" "STOC" [(2%nat, 1)];
  mkM "SELGRE" "SELGR" [(3%nat, 8)];
  mkM "SELGRH" "SELGR" [(3%nat, 2)];
  mkM "SELGRL" "SELGR" [(3%nat, 4)];
  mkM "SELGRNE" "SELGR" [(3%nat, 7)];
  mkM "SELGRNH" "SELGR" [(3%nat, 13)];
  mkM "SELGRNL" "SELGR" [(3%nat, 11)];
  mkM "SELGRNO" "SELGR" [(3%nat, 14)];
  mkM "SELGRO" "SELGR" [(3%nat, 1)];
  mkM "SELRE" "SELR" [(3%nat, 8)];
  mkM "SELRH" "SELR" [(3%nat, 2)];
  mkM "SELRL" "SELR" [(3%nat, 4)];
  mkM "SELRNE" "SELR" [(3%nat, 7)];
  mkM "SELRNH" "SELR" [(3%nat, 13)];
  mkM "SELRNL" "SELR" [(3%nat, 11)];
  mkM "SELRNO" "SELR" [(3%nat, 14)];
  mkM "SELRO" "SELR" [(3%nat, 1)];
  mkM "VZERO" "VGBM" [(0%nat, 1)];
  mkM "VONE" "VGBM" [(1%nat, 65535)];
  mkM "VGMB" "VGM" [(3%nat, 0)];
  mkM "VGMH" "VGM" [(3%nat, 1)];
  mkM "VGMF" "VGM" [(3%nat, 2)];
  mkM "VGMG" "VGM" [(3%nat, 3)];
  mkM "VLREPB" "VLREP" [(2%nat, 0)];
  mkM "VLREPH" "VLREP" [(2%nat, 1)];
  mkM "VLREPF" "VLREP" [(2%nat, 2)];
  mkM "VLREPG" "VLREP" [(2%nat, 3)];
  mkM "VLGVB" "VLGV" [(3%nat, 0)];
  mkM "VLGVH" "VLGV" [(3%nat, 1)];
  mkM "VLGVF" "VLGV" [(3%nat, 2)];
  mkM "VLGVG" "VLGV" [(3%nat, 3)];
  mkM "VLLEZB" "VLLEZ" [(2%nat, 0)];
  mkM "VLLEZH" "VLLEZ" [(2%nat, 1)];
  mkM "VLLEZF" "VLLEZ" [(2%nat, 2)];
  mkM "VLLEZG" "VLLEZ" [(2%nat, 3)];
  mkM "VLLEZLF" "VLLEZ" [(2%nat, 6)];
  mkM "VLLEBRZE" "VLLEBRZ" [(2%nat, 6)];
  mkM "VLLEBRZG" "VLLEBRZ" [(2%nat, 3)];
  mkM "VLLEBRZF" "VLLEBRZ" [(2%nat, 2)];
  mkM "VLLEBRZH" "VLLEBRZ" [(2%nat, 1)];
  mkM "VLVGB" "VLVG" [(3%nat, 0)];
  mkM "VLVGH" "VLVG" [(3%nat, 1)];
  mkM "VLVGF" "VLVG" [(3%nat, 2)];
  mkM "VLVGG" "VLVG" [(3%nat, 3)];
  mkM "VMRHB" "VMRH" [(3%nat, 0)];
  mkM "VMRHH" "VMRH" [(3%nat, 1)];
  mkM "VMRHF" "VMRH" [(3%nat, 2)];
  mkM "VMRHG" "VMRH" [(3%nat, 3)];
  mkM "VMRLB" "VMRL" [(3%nat, 0)];
  mkM "VMRLH" "VMRL" [(3%nat, 1)];
  mkM "VMRLF" "VMRL" [(3%nat, 2)];
  mkM "VMRLG" "VMRL" [(3%nat, 3)];
  mkM "VPKSH" "VPKS" [(3%nat, 1); (4%nat, 0)];
  mkM "VPKSF" "VPKS" [(3%nat, 2); (4%nat, 0)];
  mkM "VPKSG" "VPKS" [(3%nat, 3); (4%nat, 0)];
  mkM "VPKSHS" "VPKS" [(3%nat, 1); (4%nat, 1)];
  mkM "VPKSFS" "VPKS" [(3%nat, 2); (4%nat, 1)];
  mkM "VPKSGS" "VPKS" [(3%nat, 3); (4%nat, 1)];
  mkM "VPKLSH" "VPKLS" [(3%nat, 1); (4%nat, 0)];
  mkM "VPKLSF" "VPKLS" [(3%nat, 2); (4%nat, 0)];
  mkM "VPKLSG" "VPKLS" [(3%nat, 3); (4%nat, 0)];
  mkM "VPKLSHS" "VPKLS" [(3%nat, 1); (4%nat, 1)];
  mkM "VPKLSFS" "VPKLS" [(3%nat, 2); (4%nat, 1)];
  mkM "VPKLSGS" "VPKLS" [(3%nat, 3); (4%nat, 1)];
  mkM "VREPB" "VREP" [(3%nat, 0)];
  mkM "VREPH" "VREP" [(3%nat, 1)];
  mkM "VREPF" "VREP" [(3%nat, 2)];
  mkM "VREPG" "VREP" [(3%nat, 3)];
  mkM "VREPIB" "VREPI" [(2%nat, 0)];
  mkM "VREPIH" "VREPI" [(2%nat, 1)];
  mkM "VREPIF" "VREPI" [(2%nat, 2)];
  mkM "VREPIG" "VREPI" [(2%nat, 3)];
  mkM "VSEGB" "VSEG" [(2%nat, 0)];
  mkM "VSEGH" "VSEG" [(2%nat, 1)];
  mkM "VSEGF" "VSEG" [(2%nat, 2)];
  mkM "VUPHB" "VUPH" [(2%nat, 0)];
  mkM "VUPHH" "VUPH" [(2%nat, 1)];
  mkM "VUPHF" "VUPH" [(2%nat, 2)];
  mkM "VUPLHB" "VUPLH" [(2%nat, 0)];
  mkM "VUPLHG" "VUPLH" [(2%nat, 1)];
  mkM "VUPLHF" "VUPLH" [(2%nat, 2)];
  mkM "VUPLB" "VUPL" [(2%nat, 0)];
  mkM "VUPLHW" "VUPL" [(2%nat, 1)];
  mkM "VUPLF" "VUPL" [(2%nat, 2)];
  mkM "VUPLLB" "VUPLL" [(2%nat, 0)];
  mkM "VUPLLH" "VUPLL" [(2%nat, 1)];
  mkM "VUPLLF" "VUPLL" [(2%nat, 2)];
  mkM "VAB" "VA" [(3%nat, 0)];
  mkM "VAH" "VA" [(3%nat, 1)];
  mkM "VAF" "VA" [(3%nat, 2)];
  mkM "VAG" "VA" [(3%nat, 3)];
  mkM "VAQ" "VA" [(3%nat, 4)];
  mkM "VACCB" "VACC" [(3%nat, 0)];
  mkM "VACCH" "VACC" [(3%nat, 1)];
  mkM "VACCF" "VACC" [(3%nat, 2)];
  mkM "VACCG" "VACC" [(3%nat, 3)];
  mkM "VACCQ" "VACC" [(3%nat, 4)];
  mkM "VACQ" "VAC" [(3%nat, 4)];
  mkM "VACCCQ" "VACCC" [(3%nat, 4)];
  mkM "VAVGB" "VAVG" [(3%nat, 0)];
  mkM "VAVGH" "VAVG" [(3%nat, 1)];
  mkM "VAVGF" "VAVG" [(3%nat, 2)];
  mkM "VAVGG" "VAVG" [(3%nat, 3)];
  mkM "VAVGLB" "VAVGL" [(3%nat, 0)];
  mkM "VAVGLH" "VAVGL" [(3%nat, 1)];
  mkM "VAVGLF" "VAVGL" [(3%nat, 2)];
  mkM "VAVGLG" "VAVGL" [(3%nat, 3)];
  mkM "VECB" "VEC" [(2%nat, 0)];
  mkM "VECH" "VEC" [(2%nat, 1)];
  mkM "VECF" "VEC" [(2%nat, 2)];
  mkM "VECG" "VEC" [(2%nat, 3)];
  mkM "VECLB" "VECL" [(2%nat, 0)];
  mkM "VECLH" "VECL" [(2%nat, 1)];
  mkM "VECLF" "VECL" [(2%nat, 2)];
  mkM "VECLG" "VECL" [(2%nat, 3)];
  mkM "VCEQB" "VCEQ" [(3%nat, 0); (4%nat, 0)];
  mkM "VCEQH" "VCEQ" [(3%nat, 1); (4%nat, 0)];
  mkM "VCEQF" "VCEQ" [(3%nat, 2); (4%nat, 0)];
  mkM "VCEQG" "VCEQ" [(3%nat, 3); (4%nat, 0)];
  mkM "VCEQBS" "VCEQ" [(3%nat, 0); (4%nat, 1)];
  mkM "VCEQHS" "VCEQ" [(3%nat, 1); (4%nat, 1)];
  mkM "VCEQFS" "VCEQ" [(3%nat, 2); (4%nat, 1)];
  mkM "VCEQGS" "VCEQ" [(3%nat, 3); (4%nat, 1)];
  mkM "VCHB" "VCH" [(3%nat, 0); (4%nat, 0)];
  mkM "VCHH" "VCH" [(3%nat, 1); (4%nat, 0)];
  mkM "VCHF" "VCH" [(3%nat, 2); (4%nat, 0)];
  mkM "VCHG" "VCH" [(3%nat, 3); (4%nat, 0)];
  mkM "VCHBS" "VCH" [(3%nat, 0); (4%nat, 1)];
  mkM "VCHHS" "VCH" [(3%nat, 1); (4%nat, 1)];
  mkM "VCHFS" "VCH" [(3%nat, 2); (4%nat, 1)];
  mkM "VCHGS" "VCH" [(3%nat, 3); (4%nat, 1)];
  mkM "VCHLB" "VCHL" [(3%nat, 0); (4%nat, 0)];
  mkM "VCHLH" "VCHL" [(3%nat, 1); (4%nat, 0)];
  mkM "VCHLF" "VCHL" [(3%nat, 2); (4%nat, 0)];
  mkM "VCHLG" "VCHL" [(3%nat, 3); (4%nat, 0)];
  mkM "VCHLBS" "VCHL" [(3%nat, 0); (4%nat, 1)];
  mkM "VCHLHS" "VCHL" [(3%nat, 1); (4%nat, 1)];
  mkM "VCHLFS" "VCHL" [(3%nat, 2); (4%nat, 1)];
  mkM "VCHLGS" "VCHL" [(3%nat, 3); (4%nat, 1)];
  mkM "VCLZB" "VCLZ" [(2%nat, 0)];
  mkM "VCLZH" "VCLZ" [(2%nat, 1)];
  mkM "VCLZF" "VCLZ" [(2%nat, 2)];
  mkM "VCLZG" "VCLZ" [(2%nat, 3)];
  mkM "VGFMB" "VGFM" [(3%nat, 0)];
  mkM "VGFMH" "VGFM" [(3%nat, 1)];
  mkM "VGFMF" "VGFM" [(3%nat, 2)];
  mkM "VGFMG" "VGFM" [(3%nat, 3)];
  mkM "VGFMAB" "VGFMA" [(4%nat, 0)];
  mkM "VGFMAH" "VGFMA" [(4%nat, 1)];
  mkM "VGFMAF" "VGFMA" [(4%nat, 2)];
  mkM "VGFMAG" "VGFMA" [(4%nat, 3)];
  mkM "VLCB" "VLC" [(2%nat, 0)];
  mkM "VLCH" "VLC" [(2%nat, 1)];
  mkM "VLCF" "VLC" [(2%nat, 2)];
  mkM "VLCG" "VLC" [(2%nat, 3)];
  mkM "VLPB" "VLP" [(2%nat, 0)];
  mkM "VLPH" "VLP" [(2%nat, 1)];
  mkM "VLPF" "VLP" [(2%nat, 2)];
  mkM "VLPG" "VLP" [(2%nat, 3)];
  mkM "VMXB" "VMX" [(3%nat, 0)];
  mkM "VMXH" "VMX" [(3%nat, 1)];
  mkM "VMXF" "VMX" [(3%nat, 2)];
  mkM "VMXG" "VMX" [(3%nat, 3)];
  mkM "VMXLB" "VMXL" [(3%nat, 0)];
  mkM "VMXLH" "VMXL" [(3%nat, 1)];
  mkM "VMXLF" "VMXL" [(3%nat, 2)];
  mkM "VMXLG" "VMXL" [(3%nat, 3)];
  mkM "VMNB" "VMN" [(3%nat, 0)];
  mkM "VMNH" "VMN" [(3%nat, 1)];
  mkM "VMNF" "VMN" [(3%nat, 2)];
  mkM "VMNG" "VMN" [(3%nat, 3)];
  mkM "VMNLB" "VMNL" [(3%nat, 0)];
  mkM "VMNLH" "VMNL" [(3%nat, 1)];
  mkM "VMNLF" "VMNL" [(3%nat, 2)];
  mkM "VMNLG" "VMNL" [(3%nat, 3)];
  mkM "VMALB" "VMAL" [(4%nat, 0)];
  mkM "VMALHW" "VMAL" [(4%nat, 1)];
  mkM "VMALF" "VMAL" [(4%nat, 2)];
  mkM "VMAHB" "VMAH" [(4%nat, 0)];
  mkM "VMAHH" "VMAH" [(4%nat, 1)];
  mkM "VMAHF" "VMAH" [(4%nat, 2)];
  mkM "VMALHB" "VMALH" [(4%nat, 0)];
  mkM "VMALHH" "VMALH" [(4%nat, 1)];
  mkM "VMALHF" "VMALH" [(4%nat, 2)];
  mkM "VMAEB" "VMAE" [(4%nat, 0)];
  mkM "VMAEH" "VMAE" [(4%nat, 1)];
  mkM "VMAEF" "VMAE" [(4%nat, 2)];
  mkM "VMALEB" "VMALE" [(4%nat, 0)];
  mkM "VMALEH" "VMALE" [(4%nat, 1)];
  mkM "VMALEF" "VMALE" [(4%nat, 2)];
  mkM "VMAOB" "VMAO" [(4%nat, 0)];
  mkM "VMAOH" "VMAO" [(4%nat, 1)];
  mkM "VMAOF" "VMAO" [(4%nat, 2)];
  mkM "VMALOB" "VMALO" [(4%nat, 0)];
  mkM "VMALOH" "VMALO" [(4%nat, 1)];
  mkM "VMALOF" "VMALO" [(4%nat, 2)];
  mkM "VMHB" "VMH" [(3%nat, 0)];
  mkM "VMHH" "VMH" [(3%nat, 1)];
  mkM "VMHF" "VMH" [(3%nat, 2)];
  mkM "VMLHB" "VMLH" [(3%nat, 0)];
  mkM "VMLHH" "VMLH" [(3%nat, 1)];
  mkM "VMLHF" "VMLH" [(3%nat, 2)];
  mkM "VMLB" "VML" [(3%nat, 0)];
  mkM "VMLHW" "VML" [(3%nat, 1)];
  mkM "VMLF" "VML" [(3%nat, 2)];
  mkM "VMEB" "VME" [(3%nat, 0)];
  mkM "VMEH" "VME" [(3%nat, 1)];
  mkM "VMEF" "VME" [(3%nat, 2)];
  mkM "VMLEB" "VMLE" [(3%nat, 0)];
  mkM "VMLEH" "VMLE" [(3%nat, 1)];
  mkM "VMLEF" "VMLE" [(3%nat, 2)];
  mkM "VMSLG" "VMSL" [(4%nat, 3)];
  mkM "VMOB" "VMO" [(3%nat, 0)];
  mkM "VMOH" "VMO" [(3%nat, 1)];
  mkM "VMOF" "VMO" [(3%nat, 2)];
  mkM "VMLOB" "VMLO" [(3%nat, 0)];
  mkM "VMLOH" "VMLO" [(3%nat, 1)];
  mkM "VMLOF" "VMLO" [(3%nat, 2)];
  mkM "VPOPCTB" "VPOPCT" [(2%nat, 0)];
  mkM "VPOPCTH" "VPOPCT" [(2%nat, 1)];
  mkM "VPOPCTF" "VPOPCT" [(2%nat, 2)];
  mkM "VPOPCTG" "VPOPCT" [(2%nat, 3)];
  mkM "VERLLVB" "VERLLV" [(3%nat, 0)];
  mkM "VERLLVH" "VERLLV" [(3%nat, 1)];
  mkM "VERLLVF" "VERLLV" [(3%nat, 2)];
  mkM "VERLLVG" "VERLLV" [(3%nat, 3)];
  mkM "VERLLB" "VERLL" [(3%nat, 0)];
  mkM "VERLLH" "VERLL" [(3%nat, 1)];
  mkM "VERLLF" "VERLL" [(3%nat, 2)];
  mkM "VERLLG" "VERLL" [(3%nat, 3)];
  mkM "VERIMB" "VERIM" [(4%nat, 0)];
  mkM "VERIMH" "VERIM" [(4%nat, 1)];
  mkM "VERIMF" "VERIM" [(4%nat, 2)];
  mkM "VERIMG" "VERIM" [(4%nat, 3)];
  mkM "VESLVB" "VESLV" [(3%nat, 0)];
  mkM "VESLVH" "VESLV" [(3%nat, 1)];
  mkM "VESLVF" "VESLV" [(3%nat, 2)];
  mkM "VESLVG" "VESLV" [(3%nat, 3)];
  mkM "VESLB" "VESL" [(3%nat, 0)];
  mkM "VESLH" "VESL" [(3%nat, 1)];
  mkM "VESLF" "VESL" [(3%nat, 2)];
  mkM "VESLG" "VESL" [(3%nat, 3)];
  mkM "VESRAVB" "VESRAV" [(3%nat, 0)];
  mkM "VESRAVH" "VESRAV" [(3%nat, 1)];
  mkM "VESRAVF" "VESRAV" [(3%nat, 2)];
  mkM "VESRAVG" "VESRAV" [(3%nat, 3)];
  mkM "VESRAB" "VESRA" [(3%nat, 0)];
  mkM "VESRAH" "VESRA" [(3%nat, 1)];
  mkM "VESRAF" "VESRA" [(3%nat, 2)];
  mkM "VESRAG" "VESRA" [(3%nat, 3)];
  mkM "VESRLVB" "VESRLV" [(3%nat, 0)];
  mkM "VESRLVH" "VESRLV" [(3%nat, 1)];
  mkM "VESRLVF" "VESRLV" [(3%nat, 2)];
  mkM "VESRLVG" "VESRLV" [(3%nat, 3)];
  mkM "VESRLB" "VESRL" [(3%nat, 0)];
  mkM "VESRLH" "VESRL" [(3%nat, 1)];
  mkM "VESRLF" "VESRL" [(3%nat, 2)];
  mkM "VESRLG" "VESRL" [(3%nat, 3)];
  mkM "VCEFB" "VCFPS" [(2%nat, 0)];
  mkM "VSB" "VS" [(3%nat, 0)];
  mkM "VSH" "VS" [(3%nat, 1)];
  mkM "VSF" "VS" [(3%nat, 2)];
  mkM "VSG" "VS" [(3%nat, 3)];
  mkM "VSQ" "VS" [(3%nat, 4)];
  mkM "VLERH" "VLER" [(2%nat, 1)];
  mkM "VLERF" "VLER" [(2%nat, 2)];
  mkM "VLERG" "VLER" [(2%nat, 3)];
  mkM "VSCBIB" "VSCBI" [(3%nat, 0)];
  mkM "VCFEB" "VCSFP" [(2%nat, 2)];
  mkM "VSCBIH" "VSCBI" [(3%nat, 1)];
  mkM "VSCBIF" "VSCBI" [(3%nat, 2)];
  mkM "VSCBIG" "VSCBI" [(3%nat, 3)];
  mkM "VSCBIQ" "VSCBI" [(3%nat, 4)];
  mkM "VSBIQ" "VSBI" [(4%nat, 4)];
  mkM "VSBCBIQ" "VSBCBI" [(4%nat, 4)];
  mkM "VSUMQF" "VSUMQ" [(3%nat, 2)];
  mkM "VSUMQG" "VSUMQ" [(3%nat, 3)];
  mkM "VSUMGH" "VSUMG" [(3%nat, 1)];
  mkM "VSUMGF" "VSUMG" [(3%nat, 2)];
  mkM "VSUMB" "VSUM" [(3%nat, 0)];
  mkM "VSUMH" "VSUM" [(3%nat, 1)];
  mkM "VFAEB" "VFAE" [(3%nat, 0)];
  mkM "VFAEH" "VFAE" [(3%nat, 1)];
  mkM "VFAEF" "VFAE" [(3%nat, 2)];
  mkM "VFEEB" "VFEE" [(3%nat, 0)];
  mkM "VFEEH" "VFEE" [(3%nat, 1)];
  mkM "VFEEF" "VFEE" [(3%nat, 2)];
  mkM "VLBRH" "VLBR" [(2%nat, 1)];
  mkM "VLBRF" "VLBR" [(2%nat, 2)];
  mkM "VLBRG" "VLBR" [(2%nat, 3)];
  mkM "VLBRQ" "VLBR" [(2%nat, 4)];
  mkM "VFEEBS" "VFEE" [(3%nat, 0); (4%nat, 1)];
  mkM "VFEEGS" "VFEE" [(3%nat, 1); (4%nat, 1)];
  mkM "VFEEFS" "VFEE" [(3%nat, 2); (4%nat, 1)];
  mkM "VFEEZB" "VFEE" [(3%nat, 0); (4%nat, 2)];
  mkM "VFEEZH" "VFEE" [(3%nat, 1); (4%nat, 2)];
  mkM "VFEEZF" "VFEE" [(3%nat, 2); (4%nat, 2)];
  mkM "VFEEZBS" "VFEE" [(3%nat, 0); (4%nat, 3)];
  mkM "VFEEZHS" "VFEE" [(3%nat, 1); (4%nat, 3)];
  mkM "VFEEZFS" "VFEE" [(3%nat, 2); (4%nat, 3)];
  mkM "VFENEB" "VFENE" [(3%nat, 0)];
  mkM "VFENEH" "VFENE" [(3%nat, 1)];
  mkM "VFENEF" "VFENE" [(3%nat, 2)];
  mkM "VFENEBS" "VFENE" [(3%nat, 0); (4%nat, 1)];
  mkM "VFENEHS" "VFENE" [(3%nat, 1); (4%nat, 1)];
  mkM "VFENEFS" "VFENE" [(3%nat, 2); (4%nat, 1)];
  mkM "VFENEZB" "VFENE" [(3%nat, 0); (4%nat, 2)];
  mkM "VFENEZH" "VFENE" [(3%nat, 1); (4%nat, 2)];
  mkM "VFENEZF" "VFENE" [(3%nat, 2); (4%nat, 2)];
  mkM "VFENEZBS" "VFENE" [(3%nat, 0); (4%nat, 3)];
  mkM "VFENEZHS" "VFENE" [(3%nat, 1); (4%nat, 3)];
  mkM "VFENEZFS" "VFENE" [(3%nat, 2); (4%nat, 3)];
  mkM "VISTRB" "VISTR" [(3%nat, 0)];
  mkM "VISTRH" "VISTR" [(3%nat, 1)];
  mkM "VISTRF" "VISTR" [(3%nat, 2)];
  mkM "VISTRBS" "VISTR" [(3%nat, 0); (4%nat, 1)];
  mkM "VISTRHS" "VISTR" [(3%nat, 1); (4%nat, 1)];
  mkM "VISTRFS" "VISTR" [(3%nat, 2); (4%nat, 1)];
  mkM "VSTRCB" "VSTRC" [(4%nat, 0)];
  mkM "VSTRCH" "VSTRC" [(4%nat, 1)];
  mkM "VSTRCF" "VSTRC" [(4%nat, 2)];
  mkM "VLBRREPH" "VLBRREP" [(2%nat, 1)];
  mkM "VLBRREPF" "VLBRREP" [(2%nat, 2)];
  mkM "VLBRREPG" "VLBRREP" [(2%nat, 3)];
  mkM "VFASB" "VFA" [(3%nat, 2); (4%nat, 0)];
  mkM "VFADB" "VFA" [(3%nat, 3); (4%nat, 0)];
  mkM "WCDGB" "VCFPS" [(2%nat, 2)];
  mkM "WFASB" "VFA" [(3%nat, 2); (4%nat, 8)];
  mkM "WFADB" "VFA" [(3%nat, 3); (4%nat, 8)];
  mkM "WFAXB" "VFA" [(3%nat, 4); (4%nat, 8)];
  mkM "WFCSB" "WFC" [(3%nat, 2); (4%nat, 0)];
  mkM "WFCDB" "WFC" [(3%nat, 3); (4%nat, 0)];
  mkM "WFCXB" "WFC" [(3%nat, 4); (4%nat, 0)];
  mkM "WFKSB" "WFK" [(3%nat, 2); (4%nat, 0)];
  mkM "WFKDB" "WFK" [(3%nat, 3); (4%nat, 0)];
  mkM "WFKXB" "WFK" [(3%nat, 4); (4%nat, 0)];
  mkM "VFCESB" "VFCE" [(3%nat, 2); (4%nat, 0); (5%nat, 0)];
  mkM "VFCESBS" "VFCE" [(3%nat, 2); (4%nat, 0); (5%nat, 1)];
  mkM "VFCEDB" "VFCE" [(3%nat, 3); (4%nat, 0); (5%nat, 0)];
  mkM "VFCEDBS" "VFCE" [(3%nat, 3); (4%nat, 0); (5%nat, 1)];
  mkM "WFCESB" "VFCE" [(3%nat, 2); (4%nat, 8); (5%nat, 0)];
  mkM "WFCESBS" "VFCE" [(3%nat, 2); (4%nat, 8); (5%nat, 1)];
  mkM "WFCEDB" "VFCE" [(3%nat, 3); (4%nat, 8); (5%nat, 0)];
  mkM "WFCEDBS" "VFCE" [(3%nat, 3); (4%nat, 8); (5%nat, 1)];
  mkM "WFCEXB" "VFCE" [(3%nat, 4); (4%nat, 8); (5%nat, 0)];
  mkM "WFCEXBS" "VFCE" [(3%nat, 4); (4%nat, 8); (5%nat, 1)];
  mkM "VFKESB" "VFCE" [(3%nat, 2); (4%nat, 4); (5%nat, 0)];
  mkM "VFKESBS" "VFCE" [(3%nat, 2); (4%nat, 4); (5%nat, 1)];
  mkM "VFKEDB" "VFCE" [(3%nat, 3); (4%nat, 4); (5%nat, 0)];
  mkM "VFKEDBS" "VFCE" [(3%nat, 3); (4%nat, 4); (5%nat, 1)];
  mkM "WFKESB" "VFCE" [(3%nat, 2); (4%nat, 12); (5%nat, 0)];
  mkM "WFKESBS" "VFCE" [(3%nat, 2); (4%nat, 12); (5%nat, 1)];
  mkM "WFKEDB" "VFCE" [(3%nat, 3); (4%nat, 12); (5%nat, 0)];
  mkM "WFKEDBS" "VFCE" [(3%nat, 3); (4%nat, 12); (5%nat, 1)];
  mkM "WFKEXB" "VFCE" [(3%nat, 4); (4%nat, 12); (5%nat, 0)];
  mkM "WFKEXBS" "VFCE" [(3%nat, 4); (4%nat, 12); (5%nat, 1)];
  mkM "VSTRSB" "VSTRS" [(4%nat, 0)];
  mkM "VSTRSH" "VSTRS" [(4%nat, 1)];
  mkM "VSTRSF" "VSTRS" [(4%nat, 2)];
  mkM "VSTRSZB" "VSTRS" [(4%nat, 0); (5%nat, 2)];
  mkM "VFCHSB" "VFCH" [(3%nat, 2); (4%nat, 0); (5%nat, 0)];
  mkM "VFCHSBS" "VFCH" [(3%nat, 2); (4%nat, 0); (5%nat, 1)];
  mkM "VFCHDB" "VFCH" [(3%nat, 3); (4%nat, 0); (5%nat, 0)];
  mkM "VFCHDBS" "VFCH" [(3%nat, 3); (4%nat, 0); (5%nat, 1)];
  mkM "WFCHSB" "VFCH" [(3%nat, 2); (4%nat, 8); (5%nat, 0)];
  mkM "WFCHSBS" "VFCH" [(3%nat, 2); (4%nat, 8); (5%nat, 1)];
  mkM "WFCHDB" "VFCH" [(3%nat, 3); (4%nat, 8); (5%nat, 0)];
  mkM "WFCHDBS" "VFCH" [(3%nat, 3); (4%nat, 8); (5%nat, 1)];
  mkM "WFCHXB" "VFCH" [(3%nat, 4); (4%nat, 8); (5%nat, 0)];
  mkM "WFCHXBS" "VFCH" [(3%nat, 4); (4%nat, 8); (5%nat, 1)];
  mkM "VFKHSB" "VFCH" [(3%nat, 2); (4%nat, 4); (5%nat, 0)];
  mkM "VFKHSBS" "VFCH" [(3%nat, 2); (4%nat, 4); (5%nat, 1)];
  mkM "VFKHDB" "VFCH" [(3%nat, 3); (4%nat, 4); (5%nat, 0)];
  mkM "VFKHDBS" "VFCH" [(3%nat, 3); (4%nat, 4); (5%nat, 1)];
  mkM "WFKHSB" "VFCH" [(3%nat, 2); (4%nat, 12); (5%nat, 0)];
  mkM "WFKHSBS" "VFCH" [(3%nat, 2); (4%nat, 12); (5%nat, 1)];
  mkM "WFKHDB" "VFCH" [(3%nat, 3); (4%nat, 12); (5%nat, 0)];
  mkM "WFKHDBS" "VFCH" [(3%nat, 3); (4%nat, 12); (5%nat, 1)];
  mkM "WFKHXB" "VFCH" [(3%nat, 4); (4%nat, 12); (5%nat, 0)];
  mkM "WFKHXBS" "VFCH" [(3%nat, 4); (4%nat, 12); (5%nat, 1)];
  mkM "VFCHESB" "VFCHE" [(3%nat, 2); (4%nat, 0); (5%nat, 0)];
  mkM "VFCHESBS" "VFCHE" [(3%nat, 2); (4%nat, 0); (5%nat, 1)];
  mkM "VFCHEDB" "VFCHE" [(3%nat, 3); (4%nat, 0); (5%nat, 0)];
  mkM "VFCHEDBS" "VFCHE" [(3%nat, 3); (4%nat, 0); (5%nat, 1)];
  mkM "WFCHESB" "VFCHE" [(3%nat, 2); (4%nat, 8); (5%nat, 0)];
  mkM "WFCHESBS" "VFCHE" [(3%nat, 2); (4%nat, 8); (5%nat, 1)];
  mkM "WFCHEDB" "VFCHE" [(3%nat, 3); (4%nat, 8); (5%nat, 0)];
  mkM "WFCHEDBS" "VFCHE" [(3%nat, 3); (4%nat, 8); (5%nat, 1)];
  mkM "WFCHEXB" "VFCHE" [(3%nat, 4); (4%nat, 8); (5%nat, 0)];
  mkM "WFCHEXBS" "VFCHE" [(3%nat, 4); (4%nat, 8); (5%nat, 1)];
  mkM "VFKHESB" "VFCHE" [(3%nat, 2); (4%nat, 4); (5%nat, 0)];
  mkM "VFKHESBS" "VFCHE" [(3%nat, 2); (4%nat, 4); (5%nat, 1)];
  mkM "VFKHEDB" "VFCHE" [(3%nat, 3); (4%nat, 4); (5%nat, 0)];
  mkM "VFKHEDBS" "VFCHE" [(3%nat, 3); (4%nat, 4); (5%nat, 1)];
  mkM "WFKHESB" "VFCHE" [(3%nat, 2); (4%nat, 12); (5%nat, 0)];
  mkM "WFKHESBS" "VFCHE" [(3%nat, 2); (4%nat, 12); (5%nat, 1)];
  mkM "WFKHEDB" "VFCHE" [(3%nat, 3); (4%nat, 12); (5%nat, 0)];
  mkM "WFKHEDBS" "VFCHE" [(3%nat, 3); (4%nat, 12); (5%nat, 1)];
  mkM "WFKHEXB" "VFCHE" [(3%nat, 4); (4%nat, 12); (5%nat, 0)];
  mkM "WFKHEXBS" "VFCHE" [(3%nat, 4); (4%nat, 12); (5%nat, 1)];
  mkM "VCDGB" "VCFPS" [(2%nat, 3)];
  mkM "VCDLG" "VCFPL" [];
  mkM "VCDLGB" "VCFPL" [(2%nat, 3)];
  mkM "VCGDB" "VCSFP" [(2%nat, 3)];
  mkM "VCLGDB" "VCLGD" [(2%nat, 3)];
  mkM "VCLFEB" "VCLFP" [(2%nat, 0)];
  mkM "VFDSB" "VFD" [(3%nat, 2); (4%nat, 0)];
  mkM "WFDSB" "VFD" [(3%nat, 2); (4%nat, 8)];
  mkM "VFDDB" "VFD" [(3%nat, 3); (4%nat, 0)];
  mkM "WFDDB" "VFD" [(3%nat, 3); (4%nat, 8)];
  mkM "WFDXB" "VFD" [(3%nat, 4); (4%nat, 8)];
  mkM "VFISB" "VFI" [(2%nat, 2)];
  mkM "VFIDB" "VFI" [(2%nat, 3)];
  mkM "VLDE" "VFLL" [];
  mkM "VLDEB" "VFLL" [(2%nat, 2); (3%nat, 0)];
  mkM "WLDEB" "VFLL" [(2%nat, 2); (3%nat, 8)];
  mkM "VFLLS" "VFLL" [(2%nat, 2); (3%nat, 0)];
  mkM "WFLLS" "VFLL" [(2%nat, 2); (3%nat, 8)];
  mkM "WFLLD" "VFLL" [(2%nat, 3); (3%nat, 8)];
  mkM "VLED" "VFLR" [];
  mkM "VLEDB" "VFLR" [(2%nat, 3)];
  mkM "VFLRD" "VFLR" [(2%nat, 3)];
  mkM "VFMAXSB" "VFMAX" [(3%nat, 2); (4%nat, 0)];
  mkM "VFMAXDB" "VFMAX" [(3%nat, 3); (4%nat, 0)];
  mkM "WFMAXSB" "VFMAX" [(3%nat, 2); (4%nat, 8)];
  mkM "WFMAXDB" "VFMAX" [(3%nat, 3); (4%nat, 8)];
  mkM "WFMAXXB" "VFMAX" [(3%nat, 4); (4%nat, 8)];
  mkM "VFMINSB" "VFMIN" [(3%nat, 2); (4%nat, 0)];
  mkM "VFMINDB" "VFMIN" [(3%nat, 3); (4%nat, 0)];
  mkM "WFMINSB" "VFMIN" [(3%nat, 2); (4%nat, 8)];
  mkM "WFMINDB" "VFMIN" [(3%nat, 3); (4%nat, 8)];
  mkM "WFMINXB" "VFMIN" [(3%nat, 4); (4%nat, 8)];
  mkM "VFMSB" "VFM" [(3%nat, 2); (4%nat, 0)];
  mkM "VFMDB" "VFM" [(3%nat, 3); (4%nat, 0)];
  mkM "WFMSB" "VFM" [(3%nat, 2); (4%nat, 8)];
  mkM "WFMDB" "VFM" [(3%nat, 3); (4%nat, 8)];
  mkM "WFMXB" "VFM" [(3%nat, 4); (4%nat, 8)];
  mkM "VFMASB" "VFMA" [(4%nat, 0); (5%nat, 2)];
  mkM "VFMADB" "VFMA" [(4%nat, 0); (5%nat, 3)];
  mkM "WFMASB" "VFMA" [(4%nat, 8); (5%nat, 2)];
  mkM "WFMADB" "VFMA" [(4%nat, 8); (5%nat, 3)];
  mkM "WFMAXB" "VFMA" [(4%nat, 8); (5%nat, 4)];
  mkM "VFMSSB" "VFMS" [(4%nat, 0); (5%nat, 2)];
  mkM "VFMSDB" "VFMS" [(4%nat, 0); (5%nat, 3)];
  mkM "WFMSSB" "VFMS" [(4%nat, 8); (5%nat, 2)];
  mkM "WFMSDB" "VFMS" [(4%nat, 8); (5%nat, 3)];
  mkM "WFMSXB" "VFMS" [(4%nat, 8); (5%nat, 4)];
  mkM "VFNMASB" "VFNMA" [(4%nat, 0); (5%nat, 2)];
  mkM "VFNMADB" "VFNMA" [(4%nat, 0); (5%nat, 3)];
  mkM "WFNMASB" "VFNMA" [(4%nat, 8); (5%nat, 2)];
  mkM "WFNMADB" "VFNMA" [(4%nat, 8); (5%nat, 3)];
  mkM "WFNMAXB" "VFNMA" [(4%nat, 8); (5%nat, 4)];
  mkM "VFNMSSB" "VFNMS" [(4%nat, 0); (5%nat, 2)];
  mkM "VFNMSDB" "VFNMS" [(4%nat, 0); (5%nat, 3)];
  mkM "WFNMSSB" "VFNMS" [(4%nat, 8); (5%nat, 2)];
  mkM "WFNMSDB" "VFNMS" [(4%nat, 8); (5%nat, 3)];
  mkM "WFNMSXB" "VFNMS" [(4%nat, 8); (5%nat, 4)];
  mkM "VFPSOSB" "VFPSO" [(2%nat, 2); (3%nat, 0)];
  mkM "WFPSOSB" "VFPSO" [(2%nat, 2); (3%nat, 8)];
  mkM "VFLCSB" "VFPSO" [(2%nat, 2); (3%nat, 0); (4%nat, 0)];
  mkM "VCELFB" "VCFPL" [(2%nat, 0)];
  mkM "VLLEBRZH" "VLLEBRZ" [(2%nat, 1)];
  mkM "VLLEBRZF" "VLLEBRZ" [(2%nat, 2)];
  mkM "VLLEBRZG" "VLLEBRZ" [(2%nat, 3)];
  mkM "VLLEBRZE" "VLLEBRZ" [(2%nat, 6)];
  mkM "LDRV" "VLLEBRZ" [(2%nat, 3)];
  mkM "LERV" "VLLEBRZ" [(2%nat, 6)];
  mkM "VPKF" "VPK" [(3%nat, 2)];
  mkM "VPKG" "VPK" [(3%nat, 3)];
  mkM "VPKH" "VPK" [(3%nat, 1)];
  mkM "WFLCSB" "VFPSO" [(2%nat, 2); (3%nat, 8); (4%nat, 0)];
  mkM "VFLNSB" "VFPSO" [(2%nat, 2); (3%nat, 0); (4%nat, 1)];
  mkM "WFLNSB" "VFPSO" [(2%nat, 2); (3%nat, 8); (4%nat, 1)];
  mkM "VFLPSB" "VFPSO" [(2%nat, 2); (3%nat, 0); (4%nat, 2)];
  mkM "WFLPSB" "VFPSO" [(2%nat, 2); (3%nat, 8); (4%nat, 2)];
  mkM "VFPSODB" "VFPSO" [(2%nat, 3); (3%nat, 0)];
  mkM "WFPSODB" "VFPSO" [(2%nat, 3); (3%nat, 8)];
  mkM "VFLCDB" "VFPSO" [(2%nat, 3); (3%nat, 0); (4%nat, 0)];
  mkM "WFLCDB" "VFPSO" [(2%nat, 3); (3%nat, 8); (4%nat, 0)];
  mkM "VFLNDB" "VFPSO" [(2%nat, 3); (3%nat, 0); (4%nat, 1)];
  mkM "WFLNDB" "VFPSO" [(2%nat, 3); (3%nat, 8); (4%nat, 1)];
  mkM "VFLPDB" "VFPSO" [(2%nat, 3); (3%nat, 0); (4%nat, 2)];
  mkM "WFLPDB" "VFPSO" [(2%nat, 3); (3%nat, 8); (4%nat, 2)];
  mkM "WFPSOXB" "VFPSO" [(2%nat, 4); (3%nat, 8)];
  mkM "WFLCXB" "VFPSO" [(2%nat, 4); (3%nat, 8); (4%nat, 0)];
  mkM "WFLNXB" "VFPSO" [(2%nat, 4); (3%nat, 8); (4%nat, 1)];
  mkM "WFLPXB" "VFPSO" [(2%nat, 4); (3%nat, 8); (4%nat, 2)];
  mkM "VFSQSB" "VFSQ" [(2%nat, 2); (3%nat, 0)];
  mkM "VFSQDB" "VFSQ" [(2%nat, 3); (3%nat, 0)];
  mkM "WFSQSB" "VFSQ" [(2%nat, 2); (3%nat, 8)];
  mkM "WFSQDB" "VFSQ" [(2%nat, 3); (3%nat, 8)];
  mkM "WFSQXB" "VFSQ" [(2%nat, 4); (3%nat, 8)];
  mkM "VFSSB" "VFS" [(2%nat, 2); (3%nat, 0)];
  mkM "VFSDB" "VFS" [(2%nat, 3); (3%nat, 0)];
  mkM "WFSSB" "VFS" [(2%nat, 2); (3%nat, 8)];
  mkM "WFSDB" "VFS" [(2%nat, 3); (3%nat, 8)];
  mkM "WFSXB" "VFS" [(2%nat, 4); (3%nat, 8)];
  mkM "VFTCISB" "VFTCI" [(3%nat, 2); (4%nat, 0)];
  mkM "VFTCIDB" "VFTCI" [(3%nat, 3); (4%nat, 0)];
  mkM "WFTCISB" "VFTCI" [(3%nat, 2); (4%nat, 8)];
  mkM "WFTCIDB" "VFTCI" [(3%nat, 3); (4%nat, 8)];
  mkM "WFTCIXB" "VFTCI" [(3%nat, 4); (4%nat, 8)];
  mkM "XHHR" "RXSBG" [(2%nat, 0); (3%nat, 31)];
  mkM "XLHR" "RXSBG" [(2%nat, 32); (3%nat, 63); (4%nat, 32)];
  mkM "VFAEBS" "VFAE" [(3%nat, 0)];
  mkM "VFAEHS" "VFAE" [(3%nat, 1)];
  mkM "VFAEFS" "VFAE" [(3%nat, 2)];
  mkM "VFAEZB" "VFAE" [(3%nat, 0)];
  mkM "VFAEZH" "VFAE" [(3%nat, 1)];
  mkM "VFAEZF" "VFAE" [(3%nat, 2)];
  mkM "VFAEZBS" "VFAE" [(3%nat, 0)];
  mkM "VFAEZHS" "VFAE" [(3%nat, 1)];
  mkM "VFAEZFS" "VFAE" [(3%nat, 2)];
  mkM "VSTRCBS" "VSTRC" [(4%nat, 0)];
  mkM "VSTRCHS" "VSTRC" [(4%nat, 1)];
  mkM "VSTRCFS" "VSTRC" [(4%nat, 2)];
  mkM "VSTRCZB" "VSTRC" [(4%nat, 0)];
  mkM "VSTRCZH" "VSTRC" [(4%nat, 1)];
  mkM "VSTRCZF" "VSTRC" [(4%nat, 2)];
  mkM "VSTRCZBS" "VSTRC" [(4%nat, 0)];
  mkM "VSTRCZHS" "VSTRC" [(4%nat, 1)];
  mkM "VSTRCZFS" "VSTRC" [(4%nat, 2)];
  mkM "WFISB" "VFI" [(2%nat, 2)];
  mkM "WFIDB" "VFI" [(2%nat, 3)];
  mkM "WFIXB" "VFI" [(2%nat, 4)];
  mkM "WCDLGB" "VCFPL" [(2%nat, 3)];
  mkM "WCGDB" "VCSFP" [(2%nat, 3)];
  mkM "WCELFB" "VCFPL" [(2%nat, 2)];
  mkM "WCLFEB" "VCLFP" [(2%nat, 2)];
  mkM "WCEFB" "VCFPS" [(2%nat, 2)];
  mkM "WCDGB" "VCFPS" [(2%nat, 3)];
  mkM "WCFEB" "VCSFP" [(2%nat, 2)];
  mkM "WCLGDB" "VCLGD" [(2%nat, 3)];
  mkM "WLEDB" "VFLR" [(2%nat, 3)];
  mkM "WFLRD" "VFLR" [(2%nat, 3)];
  mkM "WFLRX" "VFLR" [(2%nat, 4)];
  mkM "CIJE" "CIJ" [(2%nat, 8)];
  mkM "CIJH" "CIJ" [(2%nat, 2)];
  mkM "CIJL" "CIJ" [(2%nat, 4)];
  mkM "CIJNE" "CIJ" [(2%nat, 6)];
  mkM "CIJNH" "CIJ" [(2%nat, 12)];
  mkM "CIJNL" "CIJ" [(2%nat, 10)];
  mkM "CGIBE" "CGIB" [(2%nat, 8)];
  mkM "CGIBH" "CGIB" [(2%nat, 2)];
  mkM "CGIBL" "CGIB" [(2%nat, 4)];
  mkM "CGIBNE" "CGIB" [(2%nat, 6)];
  mkM "CGIBNH" "CGIB" [(2%nat, 12)];
  mkM "CGIBNL" "CGIB" [(2%nat, 10)];
  mkM "CGIJE" "CGIJ" [(2%nat, 8)];
  mkM "CGIJH" "CGIJ" [(2%nat, 2)];
  mkM "CGIJL" "CGIJ" [(2%nat, 4)];
  mkM "CGIJNE" "CGIJ" [(2%nat, 6)];
  mkM "CGIJNH" "CGIJ" [(2%nat, 12)];
  mkM "CGIJNL" "CGIJ" [(2%nat, 10)];
  mkM "CGITE" "CGIT" [(2%nat, 8)];
  mkM "CGITH" "CGIT" [(2%nat, 2)];
  mkM "CGITL" "CGIT" [(2%nat, 4)];
  mkM "CGITNE" "CGIT" [(2%nat, 6)];
  mkM "CGITNH" "CGIT" [(2%nat, 12)];
  mkM "CGITNL" "CGIT" [(2%nat, 10)];
  mkM "CGRBE" "CGRB" [(2%nat, 8)];
  mkM "CGRBH" "CGRB" [(2%nat, 2)];
  mkM "CGRBL" "CGRB" [(2%nat, 4)];
  mkM "CGRBNE" "CGRB" [(2%nat, 6)];
  mkM "CGRBNH" "CGRB" [(2%nat, 12)];
  mkM "CGRBNL" "CGRB" [(2%nat, 10)];
  mkM "CGRJE" "CGRJ" [(2%nat, 8)];
  mkM "CGRJH" "CGRJ" [(2%nat, 2)];
  mkM "CGRJL" "CGRJ" [(2%nat, 4)];
  mkM "CGRJNE" "CGRJ" [(2%nat, 6)];
  mkM "CGRJNH" "CGRJ" [(2%nat, 12)];
  mkM "CGRJNL" "CGRJ" [(2%nat, 10)];
  mkM "CGRTE" "CGRT" [(2%nat, 8)];
  mkM "CGRTH" "CGRT" [(2%nat, 2)];
  mkM "CGRTL" "CGRT" [(2%nat, 4)];
  mkM "CGRTNE" "CGRT" [(2%nat, 6)];
  mkM "CGRTNH" "CGRT" [(2%nat, 12)];
  mkM "CGRTNL" "CGRT" [(2%nat, 10)];
  mkM "CIBE" "CIB" [(2%nat, 8)];
  mkM "CIBH" "CIB" [(2%nat, 2)];
  mkM "CIBL" "CIB" [(2%nat, 4)];
  mkM "CIBNE" "CIB" [(2%nat, 6)];
  mkM "CIBNH" "CIB" [(2%nat, 12)];
  mkM "CIBNL" "CIB" [(2%nat, 10)];
  mkM "CITE" "CIT" [(2%nat, 8)];
  mkM "CITH" "CIT" [(2%nat, 2)];
  mkM "CITL" "CIT" [(2%nat, 4)];
  mkM "CITNE" "CIT" [(2%nat, 6)];
  mkM "CITNH" "CIT" [(2%nat, 12)];
  mkM "CITNL" "CIT" [(2%nat, 10)];
  mkM "CLFITE" "CLFIT" [(2%nat, 8)];
  mkM "CLFITH" "CLFIT" [(2%nat, 2)];
  mkM "CLFITL" "CLFIT" [(2%nat, 4)];
  mkM "CLFITNE" "CLFIT" [(2%nat, 6)];
  mkM "CLFITNH" "CLFIT" [(2%nat, 12)];
  mkM "CLFITNL" "CLFIT" [(2%nat, 10)];
  mkM "CLGIBE" "CLGIB" [(2%nat, 8)];
  mkM "CLGIBH" "CLGIB" [(2%nat, 2)];
  mkM "CLGIBL" "CLGIB" [(2%nat, 4)];
  mkM "CLGIBNE" "CLGIB" [(2%nat, 6)];
  mkM "CLGIBNH" "CLGIB" [(2%nat, 12)];
  mkM "CLGIBNL" "CLGIB" [(2%nat, 10)];
  mkM "CLGIJE" "CLGIJ" [(2%nat, 8)];
  mkM "CLGIJH" "CLGIJ" [(2%nat, 2)];
  mkM "CLGIJL" "CLGIJ" [(2%nat, 4)];
  mkM "CLGIJNE" "CLGIJ" [(2%nat, 6)];
  mkM "CLGIJNH" "CLGIJ" [(2%nat, 12)];
  mkM "CLGIJNL" "CLGIJ" [(2%nat, 10)];
  mkM "CLGITE" "CLGIT" [(2%nat, 8)];
  mkM "CLGITH" "CLGIT" [(2%nat, 2)];
  mkM "CLGITL" "CLGIT" [(2%nat, 4)];
  mkM "CLGITNE" "CLGIT" [(2%nat, 6)];
  mkM "CLGITNH" "CLGIT" [(2%nat, 12)];
  mkM "CLGITNL" "CLGIT" [(2%nat, 10)];
  mkM "CLGRBE" "CLGRB" [(2%nat, 8)];
  mkM "CLGRBH" "CLGRB" [(2%nat, 2)];
  mkM "CLGRBL" "CLGRB" [(2%nat, 4)];
  mkM "CLGRBNE" "CLGRB" [(2%nat, 6)];
  mkM "CLGRBNH" "CLGRB" [(2%nat, 12)];
  mkM "CLGRBNL" "CLGRB" [(2%nat, 10)];
  mkM "CLGRJE" "CLGRJ" [(2%nat, 8)];
  mkM "CLGRJH" "CLGRJ" [(2%nat, 2)];
  mkM "CLGRJL" "CLGRJ" [(2%nat, 4)];
  mkM "CLGRJNE" "CLGRJ" [(2%nat, 6)];
  mkM "CLGRJNH" "CLGRJ" [(2%nat, 12)];
  mkM "CLGRJNL" "CLGRJ" [(2%nat, 10)];
  mkM "CLGRTE" "CLGRT" [(2%nat, 8)];
  mkM "CLGRTH" "CLGRT" [(2%nat, 2)];
  mkM "CLGRTL" "CLGRT" [(2%nat, 4)];
  mkM "CLGRTNE" "CLGRT" [(2%nat, 6)];
  mkM "CLGRTNH" "CLGRT" [(2%nat, 12)];
  mkM "CLGRTNL" "CLGRT" [(2%nat, 10)];
  mkM "CLGTE" "CLGT" [(1%nat, 8)];
  mkM "CLGTH" "CLGT" [(1%nat, 2)];
  mkM "CLGTL" "CLGT" [(1%nat, 4)];
  mkM "CLGTNE" "CLGT" [(1%nat, 6)];
  mkM "CLGTNH" "CLGT" [(1%nat, 12)];
  mkM "CLGTNL" "CLGT" [(1%nat, 10)];
  mkM "CLIBE" "CLIB" [(2%nat, 8)];
  mkM "CLIBH" "CLIB" [(2%nat, 2)];
  mkM "CLIBL" "CLIB" [(2%nat, 4)];
  mkM "CLIBNE" "CLIB" [(2%nat, 6)];
  mkM "CLIBNH" "CLIB" [(2%nat, 12)];
  mkM "CLIBNL" "CLIB" [(2%nat, 10)];
  mkM "CLIJE" "CLIJ" [(2%nat, 8)];
  mkM "CLIJH" "CLIJ" [(2%nat, 2)];
  mkM "CLIJL" "CLIJ" [(2%nat, 4)];
  mkM "CLIJNE" "CLIJ" [(2%nat, 6)];
  mkM "CLIJNH" "CLIJ" [(2%nat, 12)];
  mkM "CLIJNL" "CLIJ" [(2%nat, 10)];
  mkM "CLRBE" "CLRB" [(2%nat, 8)];
  mkM "CLRBH" "CLRB" [(2%nat, 2)];
  mkM "CLRBL" "CLRB" [(2%nat, 4)];
  mkM "CLRBNE" "CLRB" [(2%nat, 6)];
  mkM "CLRBNH" "CLRB" [(2%nat, 12)];
  mkM "CLRBNL" "CLRB" [(2%nat, 10)];
  mkM "CLRJE" "CLRJ" [(2%nat, 8)];
  mkM "CLRJH" "CLRJ" [(2%nat, 2)];
  mkM "CLRJL" "CLRJ" [(2%nat, 4)];
  mkM "CLRJNE" "CLRJ" [(2%nat, 6)];
  mkM "CLRJNH" "CLRJ" [(2%nat, 12)];
  mkM "CLRJNL" "CLRJ" [(2%nat, 10)];
  mkM "CLRTE" "CLRT" [(2%nat, 8)];
  mkM "CLRTH" "CLRT" [(2%nat, 2)];
  mkM "CLRTL" "CLRT" [(2%nat, 4)];
  mkM "CLRTNE" "CLRT" [(2%nat, 6)];
  mkM "CLRTNH" "CLRT" [(2%nat, 12)];
  mkM "CLRTNL" "CLRT" [(2%nat, 10)];
  mkM "CLTE" "CLT" [(1%nat, 8)];
  mkM "CLTH" "CLT" [(1%nat, 2)];
  mkM "CLTL" "CLT" [(1%nat, 4)];
  mkM "CLTNE" "CLT" [(1%nat, 6)];
  mkM "CLTNH" "CLT" [(1%nat, 12)];
  mkM "CLTNL" "CLT" [(1%nat, 10)];
  mkM "CRBE" "CRB" [(2%nat, 8)];
  mkM "CRBH" "CRB" [(2%nat, 2)];
  mkM "CRBL" "CRB" [(2%nat, 4)];
  mkM "CRBNE" "CRB" [(2%nat, 6)];
  mkM "CRBNH" "CRB" [(2%nat, 12)];
  mkM "CRBNL" "CRB" [(2%nat, 10)];
  mkM "CRJE" "CRJ" [(2%nat, 8)];
  mkM "CRJH" "CRJ" [(2%nat, 2)];
  mkM "CRJL" "CRJ" [(2%nat, 4)];
  mkM "CRJNE" "CRJ" [(2%nat, 6)];
  mkM "CRJNH" "CRJ" [(2%nat, 12)];
  mkM "CRJNL" "CRJ" [(2%nat, 10)];
  mkM "CRTE" "CRT" [(2%nat, 8)];
  mkM "CRTH" "CRT" [(2%nat, 2)];
  mkM "CRTL" "CRT" [(2%nat, 4)];
  mkM "CRTNE" "CRT" [(2%nat, 6)];
  mkM "CRTNH" "CRT" [(2%nat, 12)];
  mkM "CRTNL" "CRT" [(2%nat, 10)];
  mkM "NOTR" "NORK" [(2%nat, 0)];
  mkM "NOTGR" "NOGRK" [(2%nat, 0)];
  mkM "LOCGE" "LOCG" [(2%nat, 8)];
  mkM "LOCGH" "LOCG" [(2%nat, 2)];
  mkM "LOCGL" "LOCG" [(2%nat, 4)];
  mkM "LOCGNE" "LOCG" [(2%nat, 6)];
  mkM "LOCGNH" "LOCG" [(2%nat, 12)];
  mkM "LOCGNL" "LOCG" [(2%nat, 10)];
  mkM "LOCRE" "LOCR" [(2%nat, 8)];
  mkM "LOCRH" "LOCR" [(2%nat, 2)];
  mkM "LOCRL" "LOCR" [(2%nat, 4)];
  mkM "LOCRNE" "LOCR" [(2%nat, 6)];
  mkM "LOCRNH" "LOCR" [(2%nat, 12)];
  mkM "LOCRNL" "LOCR" [(2%nat, 10)];
  mkM "LOCGRE" "LOCGR" [(2%nat, 8)];
  mkM "LOCGRH" "LOCGR" [(2%nat, 2)];
  mkM "LOCGRL" "LOCGR" [(2%nat, 4)];
  mkM "LOCGRNE" "LOCGR" [(2%nat, 6)];
  mkM "LOCGRNH" "LOCGR" [(2%nat, 12)];
  mkM "LOCGRNL" "LOCGR" [(2%nat, 10)];
  mkM "LOCE" "LOC" [(2%nat, 8)];
  mkM "LOCH" "LOC" [(2%nat, 2)];
  mkM "LOCL" "LOC" [(2%nat, 4)];
  mkM "LOCNE" "LOC" [(2%nat, 6)];
  mkM "LOCNH" "LOC" [(2%nat, 12)];
  mkM "LOCNL" "LOC" [(2%nat, 10)];
  mkM "STOCGE" "STOCG" [(2%nat, 8)];
  mkM "STOCGH" "STOCG" [(2%nat, 2)];
  mkM "STOCGL" "STOCG" [(2%nat, 4)];
  mkM "STOCGNE" "STOCG" [(2%nat, 6)];
  mkM "STOCGNH" "STOCG" [(2%nat, 12)];
  mkM "STOCGNL" "STOCG" [(2%nat, 10)];
  mkM "STOCE" "STOC" [(2%nat, 8)];
  mkM "STOCH" "STOC" [(2%nat, 2)];
  mkM "STOCL" "STOC" [(2%nat, 4)];
  mkM "STOCNE" "STOC" [(2%nat, 6)];
  mkM "STOCNH" "STOC" [(2%nat, 12)];
  mkM "STOCNL" "STOC" [(2%nat, 10)];
  mkM "VNOT" "VNO" [(2%nat, 0)]].
