-Q theories Verif
theories/Prog.v
theories/Num.v
theories/Model_Common.v
theories/Model_Naive.v
theories/Model_Fft.v
theories/Model_Butterflies.v
theories/Model_SplitRadix.v
theories/Model_Mdct.v
theories/Model_Plan.v
theories/Model_Api.v
theories/Spec_Memory.v
theories/Wp.v
theories/Confine.v
theories/Confine_Meth.v
theories/Spec.v
theories/Trig.v
theories/Spec_Api.v
theories/Spec_Fft.v
theories/Spec_Plan.v
theories/Spec_Methods.v
theories/Api.v
theories/Ref.v
theories/Ref_Inverse.v
theories/Sem_Naive.v
theories/Exact_Naive.v
theories/Naive_Objects.v
theories/Properties_Naive.v
theories/Sem_Fft.v
theories/Sem_Fft2.v
theories/Exact_Fft.v
theories/Ref_Split.v
theories/Sem_Split.v
theories/Sem_Split2.v
theories/Exact_Split.v
theories/Sem_Butterflies.v
theories/Exact_Butterflies.v
theories/Contracts.v
theories/Objects.v
theories/Sem_Mdct.v
theories/Exact_Mdct.v
theories/Api_Mdct.v
theories/Tdac.v
theories/Planner.v
theories/Planner_Ids.v
theories/Canon.v
theories/Plan_Theorems.v
theories/Mdct_Theorems.v
theories/Properties_Plan.v
theories/Methods.v
theories/Dirty.v
theories/Properties_Mdct.v
theories/Properties_Calls.v
theories/Properties_Algebra.v
theories/Spec_Build.v
theories/Interleave.v
theories/Build_Conf.v
theories/Build_Reject.v
theories/Build_Works.v
theories/Build_Exact.v
theories/Build_Plan.v
theories/Properties_Build.v
theories/Properties_Compose.v
theories/Construct.v
theories/Zero.v
theories/Properties_Construct.v
theories/Cost.v
theories/Properties_Cost.v
theories/Spec_Round.v
theories/Energy.v
theories/Round_Stage.v
theories/Round_Ops.v
theories/Round_Stage3.v
theories/Round_Sem.v
theories/Round_Butterflies.v
theories/Round_Butterflies2.v
theories/Round_Plan.v
theories/Round_Theorems.v
theories/Round_Binary.v
theories/Properties_Round.v
theories/Spec_Entry.v
theories/Round_Entry.v
theories/Round_Naive.v
theories/Round_Fft.v
theories/Round_Type4.v
theories/Round_Entry_Plan.v
theories/Properties_Entry.v
theories/Spec_Mdct_Round.v
theories/Round_Mdct.v
theories/Properties_Mdct_Round.v
theories/Model_Checked.v
theories/Model_Checked_Naive.v
theories/Model_Checked_Fft.v
theories/Model_Checked_SplitRadix.v
theories/Model_Checked_Mdct.v
theories/Model_Checked_Plan.v
theories/Spec_Checked.v
theories/Checked_Eq.v
theories/Checked_Naive.v
theories/Checked_Fft.v
theories/Checked_SplitRadix.v
theories/Checked_Mdct.v
theories/Checked_Plan.v
theories/Checked_Theorems.v
theories/Checked_Naive_Mdct.v
theories/Properties_Checked.v
theories/Spec_Trace.v
theories/Oblivious.v
theories/Properties_Trace.v
theories/Spec_Count.v
theories/Planner_Count.v
theories/Properties_Count.v
theories/Spec_Overlap.v
theories/Overlap_Norm.v
theories/Overlap_Windows.v
theories/Overlap_Add.v
theories/Overlap_Plan.v
theories/Properties_Overlap.v
theories/Spec_Param.v
theories/Spec_Ieee.v
theories/Spec_Interval.v
theories/Param.v
theories/Param_Plan.v
theories/Param_Theorems.v
theories/Round_Ieee.v
theories/Interval.v
theories/Properties_Param.v
theories/Spec_Levels.v
theories/Levels.v
theories/Levels_Plan.v
theories/Levels_Lower.v
theories/Levels_Theorems.v
theories/Properties_Levels.v
theories/Spec_Float.v
theories/Float.v
theories/Properties_Float.v
theories/Spec_Trip.v
theories/Trip.v
theories/Properties_Trip.v
theories/Spec_Foreign.v
theories/Foreign.v
theories/Properties_Foreign.v
theories/Spec_Cost.v
theories/Cost_All.v
theories/Properties_Cost_All.v
theories/Spec_Adjoint.v
theories/Adjoint.v
theories/Properties_Adjoint.v
theories/Spec_Spread.v
theories/Spec_Binary.v
theories/Spread.v
theories/Binary.v
theories/Properties_Spread.v
theories/Spec_Ieee754.v
theories/Sf.v
theories/Pi_Literal.v
theories/Binary_Float.v
theories/Properties_Ieee754.v
theories/Spec_Ieee_Naive.v
theories/Binary_Naive.v
theories/Binary_Naive_Plan.v
theories/Properties_Ieee_Naive.v
theories/Spec_Symmetry.v
theories/Symmetry.v
theories/Symmetry_Silence.v
theories/Properties_Symmetry.v
theories/Spec_Mirror.v
theories/Mirror.v
theories/Mirror_Split.v
theories/Mirror_Binary.v
theories/Mirror_Constant.v
theories/Properties_Mirror.v
